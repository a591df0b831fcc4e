(** Proofs: data races of package regable. *)
From Coq Require Import ZArith List Bool Arith Lia.
From Verif Require Import GoBase ConcBase RaceSpec RaceBase RaceMutex RegModel RegObjModel RegObjSpec RegFineModel RegFineSpec.
Import ListNotations.
Local Open Scope nat_scope.

Lemma peqb_spec p q : reflect (p = q) (peqb p q).
Proof.
  destruct p as [a b], q as [c d]. unfold peqb. cbn [fst snd]. destruct (Nat.eqb_spec a c), (Nat.eqb_spec b d); cbn; constructor; congruence.
Qed.

(** ** The locks *)
(** Who is between Lock and Unlock, or RLock and RUnlock, of which record. *)
Definition wp (pc : rf_pc) : option (nat * nat) := match pc with QWrite _ p _ | QUnlock _ p _ => Some p | _ => None end.
Definition rp (pc : rf_pc) : option (nat * nat) :=
  match pc with QRead _ p | QRUnlock _ p _ => Some p | QLRead _ x | QLRUnlock _ x => Some (tx_g x, tx_i x) | _ => None end.
(** Pcs of calls that change the registry, which do not occur, and of panics inside a critical section. *)
Definition safe_pc (pc : rf_pc) : bool :=
  match pc with QCheck _ _ _ _ | QInc _ _ _ _ | QIncW _ _ _ _ _ _ | QApp _ _ _ _ _ | QFinish _ => false | _ => true end.

Record li (s : rf_state) : Prop := {
  li_w : forall t p, wp (rf_pcs s t) = Some p -> lk_w (rf_lk s p) = Some t;
  li_r : forall t p, rp (rf_pcs s t) = Some p -> In t (lk_rs (rf_lk s p));
  li_x : forall p, lk_w (rf_lk s p) <> None -> lk_rs (rf_lk s p) = [];
  li_s : forall t, safe_pc (rf_pcs s t) = true }.

Lemma li_init r : li (rf_init r).
Proof. constructor; cbn; intros; try discriminate; try reflexivity. Qed.

(** A step that leaves the locks alone. *)
Lemma li_same s s' t pc : li s -> rf_lk s' = rf_lk s -> rf_pcs s' = fupd (rf_pcs s) t pc ->
  wp pc = None \/ wp pc = wp (rf_pcs s t) -> rp pc = None \/ rp pc = rp (rf_pcs s t) -> safe_pc pc = true -> li s'.
Proof.
  intros [A B C D] El Ep Hw Hr Hs. constructor; rewrite ?El, ?Ep; auto; intros u; unfold fupd; destruct (Nat.eqb_spec u t) as [->|N]; auto.
  - intros p Hp. destruct Hw as [Hw|Hw]; [congruence|]. apply A. congruence.
  - intros p Hp. destruct Hr as [Hr|Hr]; [congruence|]. apply B. congruence.
Qed.
Lemma start_free op : wp (rf_start op) = None /\ rp (rf_start op) = None.
Proof.
  destruct op as [[]|g n v|id|[]|[]|[]|[] v|[]|[]|[]|id|id|g| |]; cbn [rf_start]; auto; destruct (_ <? _)%Z; auto.
Qed.
Lemma start_safe op : rf_safe op -> safe_pc (rf_start op) = true.
Proof.
  destruct op as [[]|g n v|id|[]|[]|[]|[] v|[]|[]|[]|id|id|g| |]; cbn [rf_start rf_safe]; try contradiction; auto; intros _.
  now destruct (_ <? _)%Z.
Qed.
Lemma found_free op p : wp (rf_found op p) = None /\ rp (rf_found op p) = None /\ safe_pc (rf_found op p) = true.
Proof. destruct op as [[]|g n v|id|[]|[]|[]|[] v|[]|[]|[]|id|id|g| |]; cbn; auto. Qed.
Lemma bad_free op id : wp (rf_bad op id) = None /\ rp (rf_bad op id) = None /\ safe_pc (rf_bad op id) = true.
Proof. destruct op as [[]|g n v|i|[]|[]|[]|[] v|[]|[]|[]|i|i|g| |]; cbn; auto. Qed.
Lemma next_free op x : wp (rf_next op x) = None /\ rp (rf_next op x) = None /\ safe_pc (rf_next op x) = true.
Proof. unfold rf_next. destruct (tx_all x); [destruct (_ <? _)|]; cbn; auto. Qed.

Lemma lk_same (f : nat * nat -> rf_lock) p l : (if peqb p p then l else f p) = l.
Proof. destruct (peqb_spec p p); congruence. Qed.
Lemma lk_other (f : nat * nat -> rf_lock) p q l : q <> p -> (if peqb q p then l else f q) = f q.
Proof. intros H. destruct (peqb_spec q p); congruence. Qed.

(** RLock, RUnlock, Lock, Unlock of [p] by [t]. *)
Lemma li_rlock s t p pc : li s -> lk_w (rf_lk s p) = None -> wp pc = None -> rp pc = Some p -> safe_pc pc = true ->
  li (rf_go (rf_set_lock s p (RfLock None (t :: lk_rs (rf_lk s p)) (lk_seen (rf_lk s p)))) t pc).
Proof.
  intros [A B C D] Hn Hw Hr Hs. constructor; cbn [rf_pcs rf_lk rf_go rf_set_lock].
  - intros u q. unfold fupd. destruct (Nat.eqb_spec u t) as [->|N]; [congruence|]. intros Hq. apply A in Hq.
    destruct (peqb_spec q p) as [->|]; [congruence|exact Hq].
  - intros u q. unfold fupd. destruct (Nat.eqb_spec u t) as [->|N]; intros Hq.
    + assert (q = p) as -> by congruence. rewrite lk_same. now left.
    + apply B in Hq. destruct (peqb_spec q p) as [->|]; [now right|exact Hq].
  - intros q. destruct (peqb_spec q p) as [->|]; [cbn; congruence|apply C].
  - intros u. unfold fupd. destruct (u =? t); auto.
Qed.
Lemma li_runlock s t p pc : li s -> rp (rf_pcs s t) = Some p -> wp pc = None -> rp pc = None -> safe_pc pc = true ->
  li (rf_go (rf_set_lock s p (RfLock (lk_w (rf_lk s p)) (remove Nat.eq_dec t (lk_rs (rf_lk s p))) (t :: lk_seen (rf_lk s p)))) t pc).
Proof.
  intros [A B C D] Hp Hw Hr Hs. constructor; cbn [rf_pcs rf_lk rf_go rf_set_lock].
  - intros u q. unfold fupd. destruct (Nat.eqb_spec u t) as [->|N]; [congruence|]. intros Hq. apply A in Hq.
    destruct (peqb_spec q p) as [->|]; exact Hq.
  - intros u q. unfold fupd. destruct (Nat.eqb_spec u t) as [->|N]; [congruence|]. intros Hq. apply B in Hq.
    destruct (peqb_spec q p) as [->|]; [cbn; now apply in_in_remove|exact Hq].
  - intros q. destruct (peqb_spec q p) as [->|]; [|apply C]. cbn. intros H. rewrite (C p H). reflexivity.
  - intros u. unfold fupd. destruct (u =? t); auto.
Qed.
Lemma li_lock s t p pc : li s -> lk_w (rf_lk s p) = None -> lk_rs (rf_lk s p) = [] -> wp pc = Some p -> rp pc = None -> safe_pc pc = true ->
  li (rf_go (rf_set_lock s p (RfLock (Some t) [] (lk_seen (rf_lk s p)))) t pc).
Proof.
  intros [A B C D] Hn He Hw Hr Hs. constructor; cbn [rf_pcs rf_lk rf_go rf_set_lock].
  - intros u q. unfold fupd. destruct (Nat.eqb_spec u t) as [->|N]; intros Hq.
    + assert (q = p) as -> by congruence. rewrite lk_same. reflexivity.
    + apply A in Hq. destruct (peqb_spec q p) as [->|]; [congruence|exact Hq].
  - intros u q. unfold fupd. destruct (Nat.eqb_spec u t) as [->|N]; [congruence|]. intros Hq. apply B in Hq.
    destruct (peqb_spec q p) as [->|]; [rewrite He in Hq; contradiction|exact Hq].
  - intros q. destruct (peqb_spec q p) as [->|]; [reflexivity|apply C].
  - intros u. unfold fupd. destruct (u =? t); auto.
Qed.
Lemma li_unlock s t p pc : li s -> wp (rf_pcs s t) = Some p -> wp pc = None -> rp pc = None -> safe_pc pc = true ->
  li (rf_go (rf_set_lock s p (RfLock None (lk_rs (rf_lk s p)) (lk_seen (rf_lk s p)))) t pc).
Proof.
  intros [A B C D] Hp Hw Hr Hs. assert (Hm := A _ _ Hp). constructor; cbn [rf_pcs rf_lk rf_go rf_set_lock].
  - intros u q. unfold fupd. destruct (Nat.eqb_spec u t) as [->|N]; [congruence|]. intros Hq. apply A in Hq.
    destruct (peqb_spec q p) as [->|]; [congruence|exact Hq].
  - intros u q. unfold fupd. destruct (Nat.eqb_spec u t) as [->|N]; [congruence|]. intros Hq. apply B in Hq.
    destruct (peqb_spec q p) as [->|]; [cbn; exact Hq|exact Hq].
  - intros q. destruct (peqb_spec q p) as [->|]; [cbn; congruence|apply C].
  - intros u. unfold fupd. destruct (u =? t); auto.
Qed.

Lemma li_step s t op : rf_safe op -> li s -> li (fst (rf_step s t op)).
Proof.
  intros Ho H. pose proof (li_s s H t) as Hs. unfold rf_step. destruct (rf_pcs s t) eqn:E; try discriminate.
  - destruct (start_free op) as [F1 F2]. pose proof (start_safe op Ho) as F3. destruct (rf_start op); try exact H;
      (eapply (li_same s _ t); [exact H|reflexivity|reflexivity| | |]; auto).
  - eapply (li_same s _ t); try reflexivity; auto.
  - eapply (li_same s _ t); try reflexivity; auto; destruct (_ && _); auto.
  - destruct (nth_error _ _); eapply (li_same s _ t); try reflexivity; auto.
  - destruct (found_free op0 (g, Z.to_nat (wrap 32 (snd (reged_ids id) - 0 - 1)))) as (F1 & F2 & F3). destruct (bad_free op0 id) as (G1 & G2 & G3).
    destruct (nth_error _ _); (eapply (li_same s _ t); [exact H|reflexivity|reflexivity| | |]; auto); destruct (_ && _); auto; destruct ok; auto.
  - destruct (rec_at _ _); eapply (li_same s _ t); try reflexivity; auto.
  - destruct (lk_w (rf_lk s p)) eqn:Ew; [exact H|]. now apply li_rlock.
  - destruct (rec_at _ _); eapply (li_same s _ t); try reflexivity; auto; rewrite E; auto.
  - apply li_runlock; auto; now rewrite E.
  - destruct (lk_w (rf_lk s p)) eqn:Ew; [exact H|]. destruct (lk_rs (rf_lk s p)) eqn:Er; [|exact H]. now apply li_lock.
  - destruct (ro_step _ _) as [[]| |]; eapply (li_same s _ t); try reflexivity; auto; rewrite E; auto.
  - apply li_unlock; auto; now rewrite E.
  - eapply (li_same s _ t); try reflexivity; auto.
  - eapply (li_same s _ t); try reflexivity; auto; destruct (_ <? _); auto.
  - destruct (nth_error _ _); eapply (li_same s _ t); try reflexivity; auto.
  - destruct (next_free op0 x) as (F1 & F2 & F3). eapply (li_same s _ t); try reflexivity; auto; destruct (_ <? _); auto.
  - destruct (lk_w (rf_lk s (tx_g x, tx_i x))) eqn:Ew; [exact H|]. now apply li_rlock.
  - destruct (rec_at _ _); eapply (li_same s _ t); try reflexivity; auto; rewrite E; auto.
  - apply li_runlock; auto; now rewrite E.
  - eapply (li_same s _ t); try reflexivity; auto.
  - exact H.
Qed.

(** ** The accesses *)
Definition sync_loc (l : rf_loc) : bool := match l with XMu _ | XRd _ _ => true | _ => false end.
Definition dat (p : nat * nat) (l : rf_loc) : Prop := l = XVal p.
Record cj (lk : nat * nat -> rf_lock) (tr : trace rf_loc) : Prop := {
  c_mj : forall p, mj (XMu p) (XRd p) (dat p) (lk_w (lk p)) (lk_rs (lk p)) (lk_seen (lk p)) tr;
  c_at : forall i u a, nth_error tr i = Some (u, a) -> atomic a = sync_loc (loc_of a);
  c_wr : forall i u a, nth_error tr i = Some (u, a) -> writes a = true -> sync_loc (loc_of a) = true \/ exists p, loc_of a = XVal p;
  c_rf : race_free tr }.

Lemma rd_inj p t u : XRd p t = XRd p u -> t = u. Proof. congruence. Qed.
Lemma rd_mu p t : XRd p t <> XMu p. Proof. discriminate. Qed.
Lemma dat_mu p : ~ dat p (XMu p). Proof. discriminate. Qed.
Lemma dat_rd p t : ~ dat p (XRd p t). Proof. discriminate. Qed.

Lemma cj_nil : cj (fun _ => RfLock None [] []) [].
Proof. constructor; [intros p; apply mj_nil| | |apply free_nil]; intros i; now destruct i. Qed.
Lemma cj_ext lk lk' tr : cj lk tr -> (forall p, lk' p = lk p) -> cj lk' tr.
Proof. intros [A B C D] E. constructor; auto. intros p. rewrite E. apply A. Qed.

Lemma cj_plain lk tr t a : cj lk tr -> atomic a = false -> sync_loc (loc_of a) = false ->
  (writes a = true -> exists p, loc_of a = XVal p) -> (forall p, loc_of a = XVal p -> holds (lk_w (lk p)) (lk_rs (lk p)) t a) -> cj lk (tr ++ [(t, a)]).
Proof.
  intros [A B C D] Ha Hs Hw Hh. constructor.
  - intros p. destruct (loc_of a) eqn:El; try (apply mj_other; [apply A|unfold dat; rewrite El; discriminate|]; intros W; split; [|intros u]; rewrite El; now destruct (Hw W)).
    destruct (peqb_spec p0 p) as [->|N].
    + apply mj_data; auto using dat_mu, dat_rd.
    + apply mj_other; [apply A|unfold dat; rewrite El; congruence|]. intros _. split; [|intros u]; rewrite El; discriminate.
  - intros i u b Hi. apply nth_snoc in Hi. destruct Hi as [Hi|[-> E]]; [now apply B in Hi|]. injection E as -> ->. congruence.
  - intros i u b Hi Wb. apply nth_snoc in Hi. destruct Hi as [Hi|[-> E]]; [eapply C; eauto|]. injection E as -> ->. right. now apply Hw.
  - apply free_snoc; auto. intros i u b Hi _ Hc. pose proof Hc as (El & [Wb|Wa] & _).
    + destruct (C _ _ _ Hi Wb) as [S|(p & Ep)]; [rewrite El in S; congruence|]. rewrite El in Ep.
      eapply (mj_knows _ _ _ _ _ _ _ _ a i u b (A p)); eauto.
    + destruct (Hw Wa) as (p & Ep). eapply (mj_knows _ _ _ _ _ _ _ _ a i u b (A p)); eauto.
Qed.
Lemma cj_list l : forall lk tr t, cj lk tr -> (forall a, In a l -> writes a = false /\ atomic a = false /\ sync_loc (loc_of a) = false /\
  forall p, loc_of a = XVal p -> holds (lk_w (lk p)) (lk_rs (lk p)) t a) -> cj lk (tr ++ map (pair t) l).
Proof.
  induction l as [|a l IH]; intros lk tr t H Hl; [now rewrite app_nil_r|].
  cbn [map]. change ((t, a) :: map (pair t) l) with ([(t, a)] ++ map (pair t) l). rewrite app_assoc.
  apply IH; [|intros b Hb; apply Hl; now right]. destruct (Hl a (or_introl eq_refl)) as (A & B & C & D). apply cj_plain; auto. congruence.
Qed.

(** The accesses that a lock makes. *)
Lemma cj_sync lk lk' tr t l : cj lk tr -> (forall a, In a l -> atomic a = true /\ sync_loc (loc_of a) = true) ->
  (forall p, mj (XMu p) (XRd p) (dat p) (lk_w (lk' p)) (lk_rs (lk' p)) (lk_seen (lk' p)) (tr ++ map (pair t) l)) -> cj lk' (tr ++ map (pair t) l).
Proof.
  intros [A B C D] Hl Hm.
  assert (G : forall l tr, (forall i u a, nth_error tr i = Some (u, a) -> atomic a = sync_loc (loc_of a)) ->
    (forall i u a, nth_error tr i = Some (u, a) -> writes a = true -> sync_loc (loc_of a) = true \/ exists p, loc_of a = XVal p) -> race_free tr ->
    (forall a, In a l -> atomic a = true /\ sync_loc (loc_of a) = true) ->
    (forall i u a, nth_error (tr ++ map (pair t) l) i = Some (u, a) -> atomic a = sync_loc (loc_of a)) /\
    (forall i u a, nth_error (tr ++ map (pair t) l) i = Some (u, a) -> writes a = true -> sync_loc (loc_of a) = true \/ exists p, loc_of a = XVal p) /\
    race_free (tr ++ map (pair t) l)).
  { clear. induction l as [|a l IH]; intros tr B C D Hl; [cbn; rewrite app_nil_r; auto|].
    cbn [map]. change ((t, a) :: map (pair t) l) with ([(t, a)] ++ map (pair t) l). rewrite app_assoc.
    destruct (Hl a (or_introl eq_refl)) as [Aa Sa]. apply IH; [| | |intros b Hb; apply Hl; now right].
    - intros i u b Hi. apply nth_snoc in Hi. destruct Hi as [Hi|[-> E]]; [now apply B in Hi|]. injection E as -> ->. congruence.
    - intros i u b Hi Wb. apply nth_snoc in Hi. destruct Hi as [Hi|[-> E]]; [eapply C; eauto|]. injection E as -> ->. auto.
    - apply free_atomic; auto. intros i u b Hi El. apply B in Hi. congruence. }
  destruct (G l tr B C D Hl) as (G1 & G2 & G3). constructor; auto.
Qed.
Lemma mj_others p l : forall w rs seen tr t, mj (XMu p) (XRd p) (dat p) w rs seen tr ->
  (forall a, In a l -> sync_loc (loc_of a) = true /\ (writes a = true -> loc_of a <> XMu p /\ forall u, loc_of a <> XRd p u)) ->
  mj (XMu p) (XRd p) (dat p) w rs seen (tr ++ map (pair t) l).
Proof.
  induction l as [|a l IH]; intros w rs seen tr t H Hl; [cbn; now rewrite app_nil_r|].
  cbn [map]. change ((t, a) :: map (pair t) l) with ([(t, a)] ++ map (pair t) l). rewrite app_assoc.
  destruct (Hl a (or_introl eq_refl)) as [Sa Wa]. apply IH; [|intros b Hb; apply Hl; now right]. apply mj_other; auto.
  unfold dat. intros E. rewrite E in Sa. discriminate.
Qed.
Definition setl (lk : nat * nat -> rf_lock) p l : nat * nat -> rf_lock := fun q => if peqb q p then l else lk q.

Lemma cj_lock lk tr t p : cj lk tr -> lk_w (lk p) = None -> lk_rs (lk p) = [] ->
  cj (setl lk p (RfLock (Some t) [] (lk_seen (lk p)))) (tr ++ map (pair t) (ALoad (XMu p) :: map (fun u => ALoad (XRd p u)) (lk_seen (lk p)))).
Proof.
  intros H Hw Hr. apply (cj_sync lk); auto.
  - intros a [<-|Ha]; [auto|]. apply in_map_iff in Ha. destruct Ha as (u & <- & _). auto.
  - intros q. unfold setl. destruct (peqb_spec q p) as [->|N]; cbn [lk_w lk_rs lk_seen].
    + assert (Em : map (pair t) (ALoad (XMu p) :: map (fun u => ALoad (XRd p u)) (lk_seen (lk p))) = map (fun x : rf_loc => (t, ALoad x)) (XMu p :: map (XRd p) (lk_seen (lk p)))).
      { cbn. now rewrite !map_map. }
      rewrite Em. apply mj_lock; auto using dat_mu, dat_rd. pose proof (c_mj _ _ H p) as M. now rewrite Hw, Hr in M.
    + apply mj_others; [apply (c_mj _ _ H q)|]. intros a [<-|Ha]; [split; [reflexivity|discriminate]|].
      apply in_map_iff in Ha. destruct Ha as (u & <- & _). split; [reflexivity|discriminate].
Qed.
Lemma cj_unlock lk tr t p : cj lk tr -> lk_w (lk p) = Some t -> lk_rs (lk p) = [] ->
  cj (setl lk p (RfLock None (lk_rs (lk p)) (lk_seen (lk p)))) (tr ++ [(t, AStore (XMu p))]).
Proof.
  intros H Hw Hr. change [(t, AStore (XMu p))] with (map (pair t) [AStore (XMu p)]). apply (cj_sync lk); auto.
  - intros a [<-|[]]. auto.
  - intros q. unfold setl. destruct (peqb_spec q p) as [->|N]; cbn [lk_w lk_rs lk_seen].
    + rewrite Hr. cbn [map]. apply mj_unlock; auto using dat_mu. pose proof (c_mj _ _ H p) as M. now rewrite Hw, Hr in M.
    + apply mj_others; [apply (c_mj _ _ H q)|]. intros a [<-|[]]. split; [reflexivity|]. intros _. cbn. split; [congruence|discriminate].
Qed.
Lemma cj_rlock lk tr t p : cj lk tr -> lk_w (lk p) = None ->
  cj (setl lk p (RfLock None (t :: lk_rs (lk p)) (lk_seen (lk p)))) (tr ++ [(t, ALoad (XMu p))]).
Proof.
  intros H Hw. change [(t, ALoad (XMu p))] with (map (pair t) [ALoad (XMu p)]). apply (cj_sync lk); auto.
  - intros a [<-|[]]. auto.
  - intros q. unfold setl. destruct (peqb_spec q p) as [->|N]; cbn [lk_w lk_rs lk_seen].
    + cbn [map]. apply mj_rlock; auto using dat_mu, rd_mu. pose proof (c_mj _ _ H p) as M. now rewrite Hw in M.
    + apply mj_others; [apply (c_mj _ _ H q)|]. intros a [<-|[]]. split; [reflexivity|discriminate].
Qed.
Lemma cj_runlock lk tr t p : cj lk tr -> lk_w (lk p) = None ->
  cj (setl lk p (RfLock (lk_w (lk p)) (remove Nat.eq_dec t (lk_rs (lk p))) (t :: lk_seen (lk p)))) (tr ++ [(t, AStore (XRd p t))]).
Proof.
  intros H Hw. change [(t, AStore (XRd p t))] with (map (pair t) [AStore (XRd p t)]). apply (cj_sync lk); auto.
  - intros a [<-|[]]. auto.
  - intros q. unfold setl. destruct (peqb_spec q p) as [->|N]; cbn [lk_w lk_rs lk_seen].
    + rewrite Hw. cbn [map]. apply mj_runlock; [intros a b; apply rd_inj|auto using rd_mu|auto using dat_rd|]. pose proof (c_mj _ _ H p) as M. now rewrite Hw in M.
    + apply mj_others; [apply (c_mj _ _ H q)|]. intros a [<-|[]]. split; [reflexivity|]. intros _. cbn. split; [discriminate|congruence].
Qed.

(** ** The invariant *)
Definition sj (s : rf_state) (tr : trace rf_loc) : Prop := li s /\ cj (rf_lk s) tr.

Lemma sj_step s t op tr : rf_safe op -> sj s tr -> sj (fst (rf_step s t op)) (tr ++ map (pair t) (rf_accs s t op)).
Proof.
  intros Hop (Hli & Hcj). split; [now apply li_step|]. pose proof (li_s s Hli t) as Hs.
  assert (Hw : forall p, wp (rf_pcs s t) = Some p -> lk_w (rf_lk s p) = Some t /\ lk_rs (rf_lk s p) = []).
  { intros p E. apply (li_w s Hli) in E. split; [exact E|]. apply (li_x s Hli). congruence. }
  assert (Hr : forall p, rp (rf_pcs s t) = Some p -> lk_w (rf_lk s p) = None /\ In t (lk_rs (rf_lk s p))).
  { intros p E. apply (li_r s Hli) in E. split; [|exact E]. destruct (lk_w (rf_lk s p)) eqn:Ew; [|reflexivity].
    rewrite (li_x s Hli) in E by congruence. contradiction. }
  unfold rf_step, rf_accs. destruct (rf_pcs s t) eqn:E; try discriminate; cbn [wp rp] in *.
  - cbn [map]. rewrite app_nil_r. destruct (rf_start op); exact Hcj.
  - cbn [fst rf_go rf_lk]. apply cj_list; [exact Hcj|]. intros a Ha. destruct (_ =? _)%Z; [contradiction|]. destruct Ha as [<-|[]]. repeat split; auto. discriminate.
  - cbn [fst rf_go rf_lk]. apply cj_list; [exact Hcj|]. intros a [<-|Ha]; [repeat split; auto; discriminate|].
    destruct (_ && _); [|contradiction]. destruct Ha as [<-|[]]. repeat split; auto; discriminate.
  - assert (El : forall pc, rf_lk (fst (match nth_error (rs_list (rf_regs s)) g with Some p => (rf_go s t (pc p), @nil (ext ro_op ro_res)) | None => (rf_go s t QDead, []) end)) = rf_lk s).
    { intros pc. now destruct (nth_error _ _). }
    rewrite (El (fun p => _)). apply cj_list; [exact Hcj|]. intros a [<-|[]]. repeat split; auto; discriminate.
  - destruct (nth_error _ _) as [p|]; cbn [fst rf_go rf_lk]; (apply cj_list; [exact Hcj|]).
    + intros a [<-|Ha]; [repeat split; auto; discriminate|]. destruct (_ && _); [|contradiction]. destruct Ha as [<-|[]]. repeat split; auto; discriminate.
    + intros a [<-|[]]; repeat split; auto; discriminate.
  - assert (El : forall x : outcome rrec, rf_lk (fst (match x with Ok r => (rf_go s t (QRet op0 (RRes (GId (rc_id r)))), @nil (ext ro_op ro_res)) | _ => (rf_go s t QDead, []) end)) = rf_lk s) by now intros [].
    rewrite El. apply cj_list; [exact Hcj|]. intros a [<-|[]]. repeat split; auto; discriminate.
  - destruct (lk_w (rf_lk s p)) eqn:Ew; [cbn; now rewrite app_nil_r|]. cbn [map fst rf_go rf_lk rf_set_lock]. now apply cj_rlock.
  - destruct (Hr p eq_refl) as [Hn Hi].
    assert (El : forall x : outcome rrec, rf_lk (fst (match x with Ok r => (rf_go s t (QRUnlock op0 p (rf_read op0 r)), @nil (ext ro_op ro_res)) | _ => (rf_go s t QDead, []) end)) = rf_lk s) by now intros [].
    rewrite El. apply cj_list; [exact Hcj|]. intros a Ha.
    assert (K : In a [PRead (XId p); PRead (XName p); PRead (XVal p)]).
    { cbn. destruct op0 as [[]|? ? ?|?|?|?|?|? ?|?|?|?|?|?|?| |]; cbn in Ha; tauto. }
    destruct K as [<-|[<-|[<-|[]]]]; repeat split; auto; intros q Eq; try discriminate. injection Eq as <-. right. auto.
  - destruct (Hr p eq_refl) as [Hn Hi]. cbn [map fst rf_go rf_lk rf_set_lock]. now apply cj_runlock.
  - destruct (lk_w (rf_lk s p)) eqn:Ew; [cbn; now rewrite app_nil_r|]. destruct (lk_rs (rf_lk s p)) eqn:Er; [|cbn; now rewrite app_nil_r].
    cbn [fst rf_go rf_lk rf_set_lock]. now apply cj_lock.
  - destruct (Hw p eq_refl) as [Hn Hi].
    assert (El : forall x : outcome (regs * ro_res), rf_lk (fst (match x with Ok (rg', r) => (rf_go (rf_set_regs s rg') t (QUnlock op0 p r), @nil (ext ro_op ro_res)) | _ => (rf_go s t QDead, []) end)) = rf_lk s) by now intros [[]| |].
    rewrite El. cbn [map]. change [(t, PRead (XElem p)); (t, PWrite (XVal p))] with ([(t, PRead (XElem p))] ++ [(t, PWrite (XVal p))]). rewrite app_assoc.
    apply cj_plain; auto.
    + apply cj_plain; auto; discriminate.
    + intros _. now exists p.
    + intros q Eq. injection Eq as <-. now left.
  - destruct (Hw p eq_refl) as [Hn Hi]. cbn [map fst rf_go rf_lk rf_set_lock]. now apply cj_unlock.
  - cbn [fst rf_go rf_lk]. apply cj_list; [exact Hcj|]. intros a [<-|[]]. repeat split; auto; discriminate.
  - cbn [fst rf_go rf_lk]. apply cj_list; [exact Hcj|]. intros a [<-|[]]. repeat split; auto; discriminate.
  - destruct (nth_error _ _) as [p|]; cbn [fst rf_go rf_lk]; (apply cj_list; [exact Hcj|]); intros a [<-|[<-|[<-|[<-|[]]]]]; repeat split; auto; discriminate.
  - cbn [fst rf_go rf_lk]. apply cj_list; [exact Hcj|]. intros a Ha. destruct (_ <? _); [|contradiction]. destruct Ha as [<-|[]]. repeat split; auto; discriminate.
  - destruct (lk_w (rf_lk s (tx_g x, tx_i x))) eqn:Ew; [cbn; now rewrite app_nil_r|]. cbn [map fst rf_go rf_lk rf_set_lock]. now apply cj_rlock.
  - destruct (Hr _ eq_refl) as [Hn Hi].
    destruct (rec_at _ _); cbn [fst rf_go rf_lk]; (apply cj_list; [exact Hcj|]); intros ac [<-|[<-|[]]]; repeat split; auto; intros q Eq; try discriminate; injection Eq as <-; right; auto.
  - destruct (Hr _ eq_refl) as [Hn Hi]. cbn [map fst rf_go rf_lk rf_set_lock]. now apply cj_runlock.
  - cbn [map]. rewrite app_nil_r. exact Hcj.
  - cbn [map]. rewrite app_nil_r. exact Hcj.
Qed.

Lemma sj_run sched : forall s tr, rf_sched_ok sched -> sj s tr -> exists s', sj s' (tr ++ trace_of rf_step rf_accs s sched).
Proof.
  induction sched as [|[t op] sched IH]; intros s tr Hs H; cbn [trace_of]; [exists s; now rewrite app_nil_r|].
  apply Forall_cons_iff in Hs. destruct Hs as [Ho Hs]. rewrite app_assoc. apply IH; [exact Hs|]. now apply sj_step.
Qed.
Theorem reg_race_free r sched : rf_sched_ok sched -> race_free (trace_of rf_step rf_accs (rf_init r) sched).
Proof.
  intros Hs. destruct (sj_run sched (rf_init r) [] Hs) as (s' & _ & C); [|apply (c_rf _ _ C)]. split; [apply li_init|exact cj_nil].
Qed.
