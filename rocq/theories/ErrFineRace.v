(** Proofs: data races of package errors. *)
From Coq Require Import ZArith List Bool Arith Lia.
From Verif Require Import GoBase ConcBase RaceSpec RaceBase RaceMutex RegModel ErrFineModel.
Import ListNotations.
Local Open Scope nat_scope.

(** ** The lock *)
Definition wpc (pc : ef_pc) : bool := match pc with FCheck _ | FAppend _ | FInc _ | FId _ | FUnlock _ _ => true | _ => false end.
Definition rpc (pc : ef_pc) : bool := match pc with FValid _ | FIndex _ | FRUnlock _ _ _ | FDead => true | _ => false end.
Record li (s : ef_state) : Prop := {
  li_w : forall t, wpc (ef_pcs s t) = true <-> ef_w s = Some t;
  li_r : forall t, rpc (ef_pcs s t) = true <-> In t (ef_rs s);
  li_x : ef_w s <> None -> ef_rs s = [] }.

Lemma li_init : li ef_init.
Proof. constructor; cbn; intros; try split; try discriminate; try contradiction; reflexivity. Qed.

Lemma wpc_next k n o : wpc (for_next k n o) = false.
Proof. destruct k as [[]|]; reflexivity. Qed.
Lemma rpc_next k n o : rpc (for_next k n o) = false.
Proof. destruct k as [[]|]; reflexivity. Qed.

(** A step that leaves the lock alone. *)
Lemma li_same s s' t pc : li s -> ef_w s' = ef_w s -> ef_rs s' = ef_rs s -> ef_pcs s' = fupd (ef_pcs s) t pc ->
  wpc pc = wpc (ef_pcs s t) -> rpc pc = rpc (ef_pcs s t) -> li s'.
Proof.
  intros [A B C] Ew Er Ep Hw Hr. constructor; rewrite ?Ew, ?Er, ?Ep; auto; intros u; unfold fupd; destruct (Nat.eqb_spec u t) as [->|N]; auto;
    rewrite ?Hw, ?Hr; auto.
Qed.

Lemma li_step grow s t op : li s -> li (fst (ef_step grow s t op)).
Proof.
  intros H. unfold ef_step. destruct (ef_pcs s t) eqn:E.
  - eapply (li_same s _ t); try reflexivity; auto; rewrite E; now destruct op.
  - destruct (ef_w s) eqn:Ew; [exact H|]. destruct (ef_rs s) eqn:Er; [|exact H]. cbn [fst].
    destruct H as [A B C]. constructor; cbn; auto; intros u; unfold fupd; destruct (Nat.eqb_spec u t) as [->|N].
    + cbn. split; auto.
    + rewrite A, Ew. split; congruence.
    + cbn. split; [discriminate|contradiction].
    + rewrite B, Er. reflexivity.
  - eapply (li_same s _ t); try reflexivity; auto; rewrite E; now destruct (_ <? _)%Z.
  - unfold ef_append. destruct (_ <? _); eapply (li_same s _ t); try reflexivity; auto; now rewrite E.
  - eapply (li_same s _ t); try reflexivity; auto; now rewrite E.
  - eapply (li_same s _ t); try reflexivity; auto; now rewrite E.
  - cbn [fst]. assert (Hw : ef_w s = Some t) by (apply (li_w s H); now rewrite E).
    assert (Hr : ef_rs s = []) by (apply (li_x s H); congruence).
    destruct H as [A B C]. constructor; cbn; auto; intros u; unfold fupd; destruct (Nat.eqb_spec u t) as [->|N].
    + cbn. split; discriminate.
    + rewrite A, Hw. split; congruence.
    + cbn. rewrite Hr. split; [discriminate|contradiction].
    + apply B.
  - destruct (ef_w s) eqn:Ew; [exact H|]. cbn [fst].
    destruct H as [A B C]. constructor; cbn; try congruence; intros u; unfold fupd; destruct (Nat.eqb_spec u t) as [->|N].
    + cbn. split; discriminate.
    + rewrite A, Ew. split; congruence.
    + cbn. split; auto.
    + rewrite B. split; auto. intros [E'|K]; [congruence|exact K].
  - eapply (li_same s _ t); try reflexivity; auto; rewrite E; now destruct (_ && _).
  - assert (Hr : In t (ef_rs s)) by (apply (li_r s H); now rewrite E).
    cbn [fst]. destruct (_ && _); eapply (li_same s _ t); try reflexivity; auto; now rewrite E.
  - assert (Hr : In t (ef_rs s)) by (apply (li_r s H); now rewrite E).
    assert (Hw : ef_w s = None). { destruct (ef_w s) eqn:Ew; [|reflexivity]. rewrite (li_x s H) in Hr by congruence. contradiction. }
    destruct H as [A B C]. constructor; cbn; try congruence; intros u; unfold fupd; destruct (Nat.eqb_spec u t) as [->|N].
    + rewrite wpc_next, Hw. split; discriminate.
    + apply A.
    + rewrite rpc_next. split; [discriminate|intros K; apply in_remove in K; now destruct K].
    + rewrite B. split; [intros K; now apply in_in_remove|intros K; now apply in_remove in K].
  - eapply (li_same s _ t); try reflexivity; auto; now rewrite E.
  - eapply (li_same s _ t); try reflexivity; auto; rewrite E; now destruct (_ <=? _)%Z.
  - eapply (li_same s _ t); try reflexivity; auto; now rewrite E.
  - exact H.
Qed.

(** ** The accesses *)
Section Data.
Context (full : bool).
(** What the lock guards; [full = false] leaves out g_id_cur_max. *)
Definition dat (l : ef_loc) : Prop := match l with ESlice | EElt _ _ => True | ECur => full = true | _ => False end.
Definition sync_loc (l : ef_loc) : bool := match l with EMu | ERd _ => true | _ => false end.
Definition odd (l : ef_loc) : Prop := full = false /\ l = ECur.
Record cj (w : option nat) (rs seen : list nat) (tr : trace ef_loc) : Prop := {
  c_mj : mj EMu ERd dat w rs seen tr;
  c_at : forall i u a, nth_error tr i = Some (u, a) -> atomic a = sync_loc (loc_of a);
  c_on : forall i j, race tr i j -> exists u a, nth_error tr i = Some (u, a) /\ odd (loc_of a) }.

Lemma rd_inj t u : ERd t = ERd u -> t = u. Proof. congruence. Qed.
Lemma rd_mu t : ERd t <> EMu. Proof. discriminate. Qed.
Lemma dat_mu : ~ dat EMu. Proof. auto. Qed.
Lemma dat_rd t : ~ dat (ERd t). Proof. auto. Qed.
Lemma dat_dec l : {dat l} + {~ dat l}.
Proof. destruct l; cbn; auto. destruct full; [now left|now right]. Qed.

Lemma on_snoc (tr : trace ef_loc) (t : nat) (a : acc ef_loc) : (forall i j, race tr i j -> exists u b, nth_error tr i = Some (u, b) /\ odd (loc_of b)) ->
  (forall i u b, nth_error tr i = Some (u, b) -> u <> t -> conflict b a -> kn tr t i \/ odd (loc_of b)) ->
  forall i j, race (tr ++ [(t, a)]) i j -> exists u b, nth_error (tr ++ [(t, a)]) i = Some (u, b) /\ odd (loc_of b).
Proof.
  intros F H i j (u & v & b & c & Hij & Hi & Hj & Hne & Hc & Hn).
  apply nth_snoc in Hi, Hj. destruct Hj as [Hj|[-> E]].
  - destruct Hi as [Hi|[-> _]]; [|apply nth_lt in Hj; lia].
    destruct (F i j) as (u' & b' & G1 & G2).
    { exists u, v, b, c. repeat split; auto; try apply Hc. intros Hh. apply Hn. now apply hb_snoc. }
    exists u', b'. split; [now apply nth_old|exact G2].
  - injection E as -> ->. destruct Hi as [Hi|[-> _]]; [|lia].
    destruct (H i u b Hi Hne Hc) as [K|K]; [exfalso; apply Hn; now apply kn_hb|].
    exists u, b. split; [now apply nth_old|exact K].
Qed.

Lemma cj_nil : cj None [] [] [].
Proof.
  constructor; [apply mj_nil| |]; intros i; [now destruct i|]. intros j (t & u & a & b & _ & H & _). now destruct i.
Qed.
(** An access to the variables. *)
Lemma cj_data w rs seen tr t a : cj w rs seen tr -> atomic a = false -> sync_loc (loc_of a) = false ->
  holds w rs t a \/ odd (loc_of a) -> cj w rs seen (tr ++ [(t, a)]).
Proof.
  intros [A B C] Ha Hs Hh. constructor.
  - destruct (dat_dec (loc_of a)) as [D|D].
    + destruct Hh as [Hh|[H1 H2]]; [|rewrite H2 in D; cbn in D; congruence].
      apply mj_data; auto using dat_mu, dat_rd.
    + apply mj_other; auto. intros _. split; [|intros u]; intros E; rewrite E in Hs; discriminate.
  - intros i u b Hi. apply nth_snoc in Hi. destruct Hi as [Hi|[-> E]]; [now apply B in Hi|]. injection E as -> ->. congruence.
  - apply on_snoc; auto. intros i u b Hi _ Hc.
    assert (Eb : loc_of b = loc_of a) by apply Hc.
    destruct (dat_dec (loc_of a)) as [D|D].
    + destruct Hh as [Hh|[H1 H2]]; [|rewrite H2 in D; cbn in D; congruence].
      left. eapply mj_knows; eauto.
    + right. rewrite Eb. split; destruct (loc_of a); cbn in *; try discriminate; try tauto; try reflexivity; now destruct full.
Qed.
Lemma cj_list l : forall w rs seen tr t, cj w rs seen tr ->
  (forall a, In a l -> atomic a = false /\ sync_loc (loc_of a) = false /\ (holds w rs t a \/ odd (loc_of a))) ->
  cj w rs seen (tr ++ map (pair t) l).
Proof.
  induction l as [|a l IH]; intros w rs seen tr t H Hl; [now rewrite app_nil_r|].
  cbn [map]. change ((t, a) :: map (pair t) l) with ([(t, a)] ++ map (pair t) l). rewrite app_assoc.
  apply IH; [|intros b Hb; apply Hl; now right]. destruct (Hl a (or_introl eq_refl)) as (A & B & C). now apply cj_data.
Qed.
Lemma at_sync (tr : trace ef_loc) (t : nat) (a : acc ef_loc) : (forall i u a, nth_error tr i = Some (u, a) -> atomic a = sync_loc (loc_of a)) -> atomic a = sync_loc (loc_of a) ->
  forall i u b, nth_error (tr ++ [(t, a)]) i = Some (u, b) -> atomic b = sync_loc (loc_of b).
Proof. intros B Ha i u b Hi. apply nth_snoc in Hi. destruct Hi as [Hi|[-> E]]; [now apply B in Hi|]. injection E as -> ->. exact Ha. Qed.
Lemma on_sync (tr : trace ef_loc) (t : nat) (a : acc ef_loc) : (forall i u a, nth_error tr i = Some (u, a) -> atomic a = sync_loc (loc_of a)) ->
  (forall i j, race tr i j -> exists u b, nth_error tr i = Some (u, b) /\ odd (loc_of b)) ->
  atomic a = true -> sync_loc (loc_of a) = true ->
  forall i j, race (tr ++ [(t, a)]) i j -> exists u b, nth_error (tr ++ [(t, a)]) i = Some (u, b) /\ odd (loc_of b).
Proof.
  intros B C Ha Hs. apply on_snoc; auto. intros i u b Hi _ (El & _ & [Nb|Na]); [|congruence].
  apply B in Hi. rewrite El in Hi. congruence.
Qed.
Lemma sync_list (l : list ef_loc) (t : nat) : forall tr : trace ef_loc, (forall i u a, nth_error tr i = Some (u, a) -> atomic a = sync_loc (loc_of a)) ->
  (forall i j, race tr i j -> exists u b, nth_error tr i = Some (u, b) /\ odd (loc_of b)) ->
  (forall x, In x l -> sync_loc x = true) ->
  (forall i u a, nth_error (tr ++ map (fun x : ef_loc => (t, ALoad x)) l) i = Some (u, a) -> atomic a = sync_loc (loc_of a)) /\
  (forall i j, race (tr ++ map (fun x : ef_loc => (t, ALoad x)) l) i j ->
    exists u b, nth_error (tr ++ map (fun x : ef_loc => (t, ALoad x)) l) i = Some (u, b) /\ odd (loc_of b)).
Proof.
  induction l as [|x l IH]; intros tr B C Hl; [cbn; now rewrite app_nil_r|].
  cbn [map]. change ((t, ALoad x) :: map (fun x : ef_loc => (t, ALoad x)) l) with ([(t, ALoad x)] ++ map (fun x : ef_loc => (t, ALoad x)) l). rewrite app_assoc.
  assert (Hx : sync_loc x = true) by (apply Hl; now left).
  apply IH; [apply at_sync; cbn; auto|apply on_sync; auto|intros y Hy; apply Hl; now right].
Qed.
Lemma cj_lock seen tr t : cj None [] seen tr -> cj (Some t) [] seen (tr ++ map (pair t) (ALoad EMu :: map (fun u => ALoad (ERd u)) seen)).
Proof.
  intros [A B C].
  assert (Em : map (pair t) (ALoad EMu :: map (fun u => ALoad (ERd u)) seen) = map (fun x : ef_loc => (t, ALoad x)) (EMu :: map ERd seen)).
  { cbn. now rewrite !map_map. }
  rewrite Em. destruct (sync_list (EMu :: map ERd seen) t tr B C) as [D E].
  { intros x [<-|Hx]; [reflexivity|]. apply in_map_iff in Hx. destruct Hx as (u & <- & _). reflexivity. }
  constructor; auto. apply mj_lock; auto using dat_mu, dat_rd.
Qed.
Lemma cj_unlock seen tr t : cj (Some t) [] seen tr -> cj None [] seen (tr ++ [(t, AStore EMu)]).
Proof. intros [A B C]. constructor; [apply mj_unlock; auto using dat_mu|apply at_sync; auto|apply on_sync; auto]. Qed.
Lemma cj_rlock rs seen tr t : cj None rs seen tr -> cj None (t :: rs) seen (tr ++ [(t, ALoad EMu)]).
Proof. intros [A B C]. constructor; [apply mj_rlock; auto using dat_mu, rd_mu|apply at_sync; auto|apply on_sync; auto]. Qed.
Lemma cj_runlock rs seen tr t : cj None rs seen tr -> cj None (remove Nat.eq_dec t rs) (t :: seen) (tr ++ [(t, AStore (ERd t))]).
Proof. intros [A B C]. constructor; [apply mj_runlock; auto using rd_inj, rd_mu, dat_rd|apply at_sync; auto|apply on_sync; auto]. Qed.

(** ** The invariant *)
Definition quiet (pc : ef_pc) : bool :=
  match pc with FHead | FLoop _ _ | FRLock (FShow _ _) | FValid (FShow _ _) | FIndex (FShow _ _) | FRUnlock (FShow _ _) _ _ => false | _ => true end.
Definition sj (s : ef_state) (tr : trace ef_loc) : Prop :=
  li s /\ cj (ef_w s) (ef_rs s) (ef_seen s) tr /\ (full = true -> forall t, quiet (ef_pcs s t) = true).

Lemma quiet_step grow s t op u : op <> EShowAll -> (forall t, quiet (ef_pcs s t) = true) -> quiet (ef_pcs (fst (ef_step grow s t op)) u) = true.
Proof.
  intros Hop H. pose proof (H t) as Ht. unfold ef_step.
  destruct (ef_pcs s t) eqn:E; try destruct k; try discriminate;
    repeat match goal with |- context [match ?x with _ => _ end] => destruct x eqn:? end;
    try discriminate; try congruence; cbn [fst ef_pcs ef_go ef_set_lock ef_set_cur]; unfold ef_append;
    repeat match goal with |- context [if ?x then _ else _] => destruct x eqn:? end;
    cbn [fst ef_pcs ef_go ef_set_lock ef_set_cur]; unfold fupd; try destruct (u =? t); auto;
    try (destruct op0; reflexivity).
Qed.

Lemma sj_step grow s t op tr : (full = true -> op <> EShowAll) -> sj s tr ->
  sj (fst (ef_step grow s t op)) (tr ++ map (pair t) (ef_accs s t op)).
Proof.
  intros Hop (Hli & Hcj & Hq). split; [now apply li_step|]. split; [|intros Hf u; apply quiet_step; auto].
  assert (Hw : wpc (ef_pcs s t) = true -> ef_w s = Some t) by apply (li_w s Hli).
  assert (Hr : rpc (ef_pcs s t) = true -> ef_w s = None /\ In t (ef_rs s)).
  { intros E. apply (li_r s Hli) in E. split; [|exact E]. destruct (ef_w s) eqn:Ew; [|reflexivity].
    rewrite (li_x s Hli) in E by congruence. contradiction. }
  assert (Ho : quiet (ef_pcs s t) = false -> odd ECur).
  { intros E. split; [|reflexivity]. destruct full; [|reflexivity]. rewrite (Hq eq_refl t) in E. discriminate. }
  unfold ef_step, ef_accs. destruct (ef_pcs s t) eqn:E; cbn [map]; rewrite ?app_nil_r; cbn [wpc rpc quiet] in *.
  - exact Hcj.
  - destruct (ef_w s) eqn:Ew; [cbn; now rewrite app_nil_r, Ew|]. destruct (ef_rs s) eqn:Er; [|cbn; now rewrite app_nil_r, Ew, Er].
    cbn. apply (cj_lock (ef_seen s) tr t). exact Hcj.
  - cbn. apply cj_data; auto. left. left. now apply Hw.
  - specialize (Hw eq_refl).
    assert (Es : forall s', s' = ef_append grow s name -> ef_w s' = ef_w s /\ ef_rs s' = ef_rs s /\ ef_seen s' = ef_seen s).
    { intros s' ->. unfold ef_append. now destruct (_ <? _). }
    destruct (Es _ eq_refl) as (E1 & E2 & E3). cbn [fst ef_w ef_rs ef_seen ef_go]. rewrite E1, E2, E3.
    apply cj_list; [exact Hcj|]. intros a Ha.
    assert (Hx : atomic a = false /\ sync_loc (loc_of a) = false).
    { destruct (_ <? _).
      - destruct Ha as [<-|[<-|[<-|[]]]]; auto.
      - destruct Ha as [<-|Ha]; [auto|]. apply in_app_or in Ha. destruct Ha as [Ha|Ha].
        + apply in_map_iff in Ha. destruct Ha as (i & <- & _). auto.
        + apply in_app_or in Ha. destruct Ha as [Ha|[<-|[]]]; [|auto]. apply in_map_iff in Ha. destruct Ha as (i & <- & _). auto. }
    destruct Hx. repeat split; auto. left. now left.
  - cbn. change [(t, PRead ECur); (t, PWrite ECur)] with (map (pair t) [PRead ECur; PWrite ECur]). apply cj_list; [exact Hcj|].
    intros a [<-|[<-|[]]]; repeat split; auto; left; left; now apply Hw.
  - cbn. apply cj_data; auto. left. left. now apply Hw.
  - cbn. specialize (Hw eq_refl). assert (Er : ef_rs s = []) by (apply (li_x s Hli); congruence).
    rewrite Er in *. rewrite Hw in Hcj. now apply cj_unlock.
  - destruct (ef_w s) eqn:Ew; [cbn; now rewrite app_nil_r, Ew|]. cbn. apply cj_rlock. exact Hcj.
  - destruct (Hr eq_refl) as [Hn Hi]. cbn [fst ef_go ef_w ef_rs ef_seen]. destruct (_ <=? _)%Z; cbn [map]; [|now rewrite app_nil_r].
    apply cj_data; auto. left. right. auto.
  - destruct (Hr eq_refl) as [Hn Hi]. cbn [fst ef_go ef_w ef_rs ef_seen].
    change ((t, PRead ESlice) :: map (pair t) ?l) with (map (pair t) (PRead ESlice :: l)).
    apply cj_list; [exact Hcj|]. intros a [<-|Ha]; [repeat split; auto; left; right; auto|].
    destruct (_ && _); [|contradiction]. destruct Ha as [<-|[]]. repeat split; auto; left; right; auto.
  - destruct (Hr eq_refl) as [Hn Hi]. cbn. rewrite Hn in *. now apply cj_runlock.
  - cbn. apply cj_data; auto.
  - cbn. apply cj_data; auto.
  - exact Hcj.
  - exact Hcj.
Qed.

Lemma sj_run grow sched : forall s tr, (full = true -> forall t, ~ In (t, EShowAll) sched) -> sj s tr ->
  exists s', sj s' (tr ++ trace_of (ef_step grow) ef_accs s sched).
Proof.
  induction sched as [|[t op] sched IH]; intros s tr Hs H; cbn [trace_of]; [exists s; now rewrite app_nil_r|].
  rewrite app_assoc. apply IH; [intros Hf u Hu; apply (Hs Hf u); now right|]. apply sj_step; [|exact H].
  intros Hf ->. apply (Hs Hf t). now left.
Qed.
Lemma sj_init : sj ef_init [].
Proof. split; [exact li_init|]. split; [exact cj_nil|]. intros _ t. reflexivity. Qed.
Lemma sj_all grow sched : (full = true -> forall t, ~ In (t, EShowAll) sched) ->
  forall i j, race (trace_of (ef_step grow) ef_accs ef_init sched) i j ->
  exists u a, nth_error (trace_of (ef_step grow) ef_accs ef_init sched) i = Some (u, a) /\ full = false /\ loc_of a = ECur.
Proof. intros Hs. destruct (sj_run grow sched ef_init [] Hs sj_init) as (s' & _ & [_ _ C] & _). exact C. Qed.
End Data.

Theorem errors_race_free grow sched : (forall t, ~ In (t, EShowAll) sched) -> race_free (trace_of (ef_step grow) ef_accs ef_init sched).
Proof. intros Hs i j H. destruct (sj_all true grow sched (fun _ => Hs) i j H) as (u & a & _ & K & _). discriminate. Qed.
Theorem errors_races grow sched i j : race (trace_of (ef_step grow) ef_accs ef_init sched) i j ->
  exists u a, nth_error (trace_of (ef_step grow) ef_accs ef_init sched) i = Some (u, a) /\ loc_of a = ECur.
Proof.
  intros H. destruct (sj_all false grow sched (fun E => match Bool.diff_false_true E with end) i j H) as (u & a & K & _ & L). eauto.
Qed.
