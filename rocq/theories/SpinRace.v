(** What a SpinLock guards has no data races; so with the writers' side of an
    RWSpinLock. *)
From Coq Require Import ZArith List Bool Lia ZifyBool ZifyNat.
From Verif Require Import GoBase ConcBase SpinModel RaceSpec RaceBase RaceModel.
Import ListNotations.
Open Scope Z_scope.

Definition is_data (a : acc g_loc) : bool := match loc_of a with GData _ => true | _ => false end.
Definition gacc_ok (a : acc g_loc) : Prop := atomic a = negb (is_data a) /\ (forall l, a <> AStore l).

(** Facts about the accesses alone: whoever owns the lock knows all data accesses,
    and when nobody does the lock's word knows them. *)
Record T (word : Z) (own : nat -> Prop) (tr : trace g_loc) : Prop := {
  t_free : race_free tr;
  t_acc : forall e u a, nth_error tr e = Some (u, a) -> gacc_ok a;
  t_word : word = 0 -> forall e u a, nth_error tr e = Some (u, a) -> is_data a = true -> kx tr GWord e;
  t_own : forall t, own t -> word = 1 /\ forall e u a, nth_error tr e = Some (u, a) -> is_data a = true -> kn tr t e;
  t_uniq : forall t u, own t -> own u -> t = u }.

Lemma t_imp w (own own' : nat -> Prop) tr : T w own tr -> (forall t, own' t -> own t) -> T w own' tr.
Proof. intros [A B C D E] H. constructor; auto. Qed.

Lemma t_atomic w own tr t a : T w own tr -> gacc_ok a -> is_data a = false -> T w own (tr ++ [(t, a)]).
Proof.
  intros H [Ha Hs] Hd. rewrite Hd in Ha. cbn in Ha. constructor; try apply H.
  - apply free_atomic; [apply H|exact Ha|]. intros i u b Hi Hl. destruct (t_acc _ _ _ H _ _ _ Hi) as [Hb _].
    unfold is_data in Hb, Hd. rewrite Hl, Hd in Hb. exact Hb.
  - intros e u b He. apply nth_snoc in He. destruct He as [He|[-> He]]; [now apply (t_acc _ _ _ H e u)|]. injection He as -> ->.
    split; [now rewrite Hd|exact Hs].
  - intros Hw e u b He Hb. apply nth_snoc in He. destruct He as [He|[-> He]]; [|injection He as -> ->; congruence].
    specialize (t_word _ _ _ H Hw e u b He Hb) as K. destruct a as [l|l|l|l|l]; try discriminate; cbn in *.
    + apply kx_other; [discriminate|exact K].
    + exfalso. now apply (Hs l).
    + destruct l; [apply kx_rmw; now left| |]; apply kx_other; auto; cbn; discriminate.
  - intros v Hv. destruct (t_own _ _ _ H v Hv) as [E K]. split; [exact E|]. intros e u b He Hb.
    apply nth_snoc in He. destruct He as [He|[-> He]]; [|injection He as -> ->; congruence]. apply kn_snoc. now apply (K e u b).
Qed.

Lemma t_data w own tr t a : T w own tr -> own t -> gacc_ok a -> is_data a = true -> T w own (tr ++ [(t, a)]).
Proof.
  intros H Ho Ha Hd. destruct (t_own _ _ _ H t Ho) as [Hw K]. constructor; try apply H.
  - apply free_snoc; [apply H|]. intros i u b Hi Hu (Hl & _). apply (K i u b Hi). unfold is_data in *. now rewrite Hl.
  - intros e u b He. apply nth_snoc in He. destruct He as [He|[-> He]]; [now apply (t_acc _ _ _ H e u)|]. injection He as -> ->. exact Ha.
  - intros Hw'. congruence.
  - intros v Hv. assert (v = t) as -> by now apply (t_uniq _ _ _ H). split; [exact Hw|]. intros e u b He Hb.
    apply nth_snoc in He. destruct He as [He|[-> He]]; [apply kn_snoc; now apply (K e u b)|]. injection He as -> ->. apply kn_self.
Qed.

Lemma t_take (own own' : nat -> Prop) tr t : T 0 own tr -> (forall u, own' u -> u = t \/ own u) -> T 1 own' (tr ++ [(t, ARmw GWord)]).
Proof.
  intros H0 Ho. assert (H : T 0 own (tr ++ [(t, ARmw GWord)])) by (apply t_atomic; [exact H0|split; [reflexivity|discriminate]|reflexivity]).
  assert (N : forall u, ~ own u) by (intros u Hu; destruct (t_own _ _ _ H0 u Hu); lia).
  constructor; try apply H.
  - discriminate.
  - intros u Hu. destruct (Ho u Hu) as [->|X]; [|now apply N in X]. split; [reflexivity|]. intros e v b He Hb.
    apply nth_snoc in He. destruct He as [He|[-> He]]; [|injection He as -> ->; discriminate].
    apply kn_load; [reflexivity|reflexivity|]. now apply (t_word _ _ _ H0 eq_refl e v b).
  - intros u v Hu Hv. destruct (Ho u Hu) as [->|X]; [|now apply N in X]. destruct (Ho v Hv) as [->|X]; [|now apply N in X]. reflexivity.
Qed.

Lemma t_release w (own own' : nat -> Prop) tr t : T w own tr -> own t -> (forall u, own' u -> own u /\ u <> t) -> T 0 own' (tr ++ [(t, ARmw GWord)]).
Proof.
  intros H0 Hot Ho. assert (H : T w own (tr ++ [(t, ARmw GWord)])) by (apply t_atomic; [exact H0|split; [reflexivity|discriminate]|reflexivity]).
  assert (N : forall u, ~ own' u) by (intros u Hu; destruct (Ho u Hu) as [A B]; apply B; now apply (t_uniq _ _ _ H0)).
  constructor; try apply H.
  - intros _ e v b He Hb. apply nth_snoc in He. destruct He as [He|[-> He]]; [|injection He as -> ->; discriminate].
    apply kx_rmw. right. now apply (t_own _ _ _ H0 t Hot) with v b.
  - intros u Hu. now apply N in Hu.
  - intros u v Hu. now apply N in Hu.
Qed.

Lemma t_nil w (own : nat -> Prop) : (forall t, ~ own t) -> T w own [].
Proof.
  intros N. constructor.
  - apply free_nil.
  - intros [|e]; discriminate.
  - intros _ [|e]; discriminate.
  - intros t Ht. now apply N in Ht.
  - intros t u Ht. now apply N in Ht.
Qed.

(** ** SpinLock *)
Definition g_own (s : g_state) (t : nat) : Prop :=
  match sl_pcs (g_lock s) t with SRet LLock LOk | SUnlock => True | SIdle => g_in s t = true | _ => False end.
Definition g_inv (s : g_state) (tr : trace g_loc) : Prop :=
  (sl_word (g_lock s) = 0 \/ sl_word (g_lock s) = 1) /\ (forall t, g_in s t = true -> sl_pcs (g_lock s) t = SIdle) /\
  T (sl_word (g_lock s)) (g_own s) tr.

Ltac owncase t := unfold g_own; cbn [g_lock sl_pcs g_in]; intros u; unfold fupd; destruct (Nat.eqb_spec u t) as [->|].

Lemma g_inv_step s tr t op : g_inv s tr -> g_inv (fst (g_step s t op)) (tr ++ map (pair t) (g_accs s t op)).
Proof.
  intros (Hw & Hi & H). pose proof (Hi t) as Ht. unfold g_step, g_accs, sl_accs, sl_step. destruct (sl_pcs (g_lock s) t) as [|i| |op' r] eqn:E.
  - destruct (g_in s t) eqn:Ei.
    + destruct op as [[|]|x|x]; cbn [fst map]; rewrite ?app_nil_r; (split; [cbn; auto|split; cbn; auto]).
      * owncase t; [discriminate|auto].
      * apply t_imp with (g_own s); [exact H|]. owncase t; auto. now rewrite E.
      * apply t_data; [exact H|unfold g_own; now rewrite E|split; [reflexivity|discriminate]|reflexivity].
      * apply t_data; [exact H|unfold g_own; now rewrite E|split; [reflexivity|discriminate]|reflexivity].
    + destruct op as [[|]|x|x]; cbn [fst map]; rewrite app_nil_r; (split; [cbn; auto|split; cbn; auto]).
      * owncase t; [congruence|auto].
      * apply t_imp with (g_own s); [exact H|]. owncase t; [contradiction|auto].
  - assert (Nt : g_in s t = false) by (destruct (g_in s t); [discriminate (Ht eq_refl)|reflexivity]).
    destruct (spin_max <? i); [|destruct (Z.eqb_spec (sl_word (g_lock s)) 0) as [E0|E0]]; cbn [fst map]; rewrite ?app_nil_r;
      (split; [cbn; auto|split; [owncase t; [congruence|auto]|cbn]]).
    + apply t_imp with (g_own s); [exact H|]. owncase t; [contradiction|auto].
    + rewrite E0 in H. apply t_take with (g_own s); [exact H|]. owncase t; auto.
    + apply t_atomic; [|split; [reflexivity|discriminate]|reflexivity].
      apply t_imp with (g_own s); [exact H|]. owncase t; [contradiction|auto].
  - assert (Nt : g_in s t = false) by (destruct (g_in s t); [discriminate (Ht eq_refl)|reflexivity]).
    assert (Ow : g_own s t) by (unfold g_own; now rewrite E). destruct (t_own _ _ _ H t Ow) as [E1 _].
    rewrite E1. change (1 =? spin_locked) with true. cbn [fst map]. split; [cbn; auto|split; [owncase t; [congruence|auto]|cbn]].
    apply t_release with (sl_word (g_lock s)) (g_own s); [exact H|exact Ow|]. owncase t; [contradiction|auto].
  - assert (Nt : g_in s t = false) by (destruct (g_in s t); [discriminate (Ht eq_refl)|reflexivity]).
    cbn [fst map]. rewrite app_nil_r. split; [cbn; auto|split].
    + cbn [g_in g_lock sl_pcs]. intros u. destruct op', r; unfold fupd; destruct (Nat.eqb_spec u t) as [->|]; auto.
    + cbn [g_lock sl_word]. apply t_imp with (g_own s); [exact H|].
      unfold g_own; cbn [g_lock sl_pcs g_in]; intros u.
      destruct op' as [|], r as [|]; unfold fupd; destruct (Nat.eqb_spec u t) as [->|]; rewrite ?E; auto; congruence.
Qed.

Theorem spin_guards sched : race_free (trace_of g_step g_accs g_init sched).
Proof.
  pose proof (trace_inv g_step g_accs g_inv (fun s tr t op => g_inv_step s tr t op) sched g_init []) as H. cbn [app] in H.
  destruct H as (_ & _ & H).
  - split; [now left|]. split; [discriminate|]. apply t_nil. unfold g_own. cbn. discriminate.
  - apply (t_free _ _ _ H).
Qed.

(** ** The writers of an RWSpinLock *)
Definition w_own (s : w_state) (t : nat) : Prop :=
  match rw_pcs (w_lock s) t with PWAdd | PRet WLock LOk | PWUAdd | PWUCas => True | PIdle => w_wr s t = true | _ => False end.
Definition w_only (pc : rw_pc) : Prop :=
  match pc with PIdle | PWSpin _ | PWAdd | PWUAdd | PWUCas | PRet WLock _ | PRet WUnlock _ => True | _ => False end.
Definition w_inv (s : w_state) (tr : trace g_loc) : Prop :=
  (rw_w (w_lock s) = 0 \/ rw_w (w_lock s) = 1) /\ (forall t, w_wr s t = true -> rw_pcs (w_lock s) t = PIdle) /\
  (forall t, w_rd s t = false) /\ (forall t, w_only (rw_pcs (w_lock s) t)) /\
  T (rw_w (w_lock s)) (w_own s) tr.

Ltac wcase t := unfold w_own; cbn [w_lock rw_pcs w_wr]; intros u; unfold fupd; destruct (Nat.eqb_spec u t) as [->|].

Lemma w_inv_step s tr t op : op <> WCall RLock -> w_inv s tr -> w_inv (fst (w_step s t op)) (tr ++ map (pair t) (w_accs s t op)).
Proof.
  intros Hop (Hw & Hi & Hr & Hp & H). pose proof (Hi t) as Ht. pose proof (Hp t) as Hpt. unfold w_step, w_accs, rw_accs, rw_step. rewrite ?Hr.
  assert (Q : forall pc, w_only pc -> forall u, w_only (fupd (rw_pcs (w_lock s)) t pc u)).
  { intros pc X u. unfold fupd. destruct (Nat.eqb u t); auto. }
  destruct (rw_pcs (w_lock s) t) as [|i| | | |i| |i| | |op' r] eqn:E; cbn in Hpt; try contradiction.
  - destruct (w_wr s t) eqn:Ei; cbn [orb].
    + destruct op as [[| | |]|x|x]; cbn [fst map]; rewrite ?app_nil_r; try (split; [exact Hw|split; [exact Hi|split; [exact Hr|split; [exact Hp|exact H]]]]).
      * split; [exact Hw|]. split; [wcase t; [discriminate|auto]|]. split; [exact Hr|]. split; [now apply Q|].
        apply t_imp with (w_own s); [exact H|]. wcase t; auto. now rewrite E.
      * split; [exact Hw|split; [exact Hi|split; [exact Hr|split; [exact Hp|]]]].
        apply t_data; [exact H|unfold w_own; now rewrite E|split; [reflexivity|discriminate]|reflexivity].
      * split; [exact Hw|split; [exact Hi|split; [exact Hr|split; [exact Hp|]]]].
        apply t_data; [exact H|unfold w_own; now rewrite E|split; [reflexivity|discriminate]|reflexivity].
    + destruct op as [[| | |]|x|x]; cbn [fst map]; rewrite ?app_nil_r; try (split; [exact Hw|split; [exact Hi|split; [exact Hr|split; [exact Hp|exact H]]]]).
      * split; [exact Hw|]. split; [wcase t; [congruence|auto]|]. split; [exact Hr|]. split; [now apply Q|].
        apply t_imp with (w_own s); [exact H|]. wcase t; [contradiction|auto].
      * congruence.
  - assert (Nt : w_wr s t = false) by (destruct (w_wr s t); [discriminate (Ht eq_refl)|reflexivity]).
    destruct (spin_max <? i); [|destruct (Z.eqb_spec (rw_w (w_lock s)) 0) as [E0|E0]]; cbn [fst map]; rewrite ?app_nil_r;
      (split; [cbn; auto|split; [wcase t; [congruence|auto]|split; [exact Hr|split; [now apply Q|cbn]]]]).
    + apply t_imp with (w_own s); [exact H|]. wcase t; [contradiction|auto].
    + rewrite E0 in H. apply t_take with (w_own s); [exact H|]. wcase t; auto.
    + apply t_atomic; [|split; [reflexivity|discriminate]|reflexivity].
      apply t_imp with (w_own s); [exact H|]. wcase t; [contradiction|auto].
  - assert (Nt : w_wr s t = false) by (destruct (w_wr s t); [discriminate (Ht eq_refl)|reflexivity]).
    cbn [fst map]. split; [exact Hw|]. split; [wcase t; [congruence|auto]|]. split; [exact Hr|]. split; [now apply Q|].
    apply t_atomic; [|split; [reflexivity|discriminate]|reflexivity].
    apply t_imp with (w_own s); [exact H|]. wcase t; auto. now rewrite E.
  - assert (Nt : w_wr s t = false) by (destruct (w_wr s t); [discriminate (Ht eq_refl)|reflexivity]).
    cbn [fst map]. split; [exact Hw|]. split; [wcase t; [congruence|auto]|]. split; [exact Hr|]. split; [apply Q; destruct (_ <=? _); exact Logic.I|].
    apply t_atomic; [|split; [reflexivity|discriminate]|reflexivity].
    apply t_imp with (w_own s); [exact H|]. wcase t; auto. now rewrite E.
  - assert (Nt : w_wr s t = false) by (destruct (w_wr s t); [discriminate (Ht eq_refl)|reflexivity]).
    assert (Ow : w_own s t) by (unfold w_own; now rewrite E). destruct (t_own _ _ _ H t Ow) as [E1 _].
    rewrite E1. change (1 =? spin_locked) with true. cbn [fst map].
    split; [cbn; auto|]. split; [wcase t; [congruence|auto]|]. split; [exact Hr|]. split; [now apply Q|]. cbn.
    apply t_release with (rw_w (w_lock s)) (w_own s); [exact H|exact Ow|]. wcase t; [contradiction|auto].
  - assert (Nt : w_wr s t = false) by (destruct (w_wr s t); [discriminate (Ht eq_refl)|reflexivity]).
    cbn [fst map]. rewrite app_nil_r. split; [exact Hw|]. split; [|split; [|split; [now apply Q|]]].
    + cbn [w_wr w_lock rw_pcs]. intros u. destruct op', r; unfold fupd; destruct (Nat.eqb_spec u t) as [->|]; auto.
    + cbn [w_rd]. destruct op', r; try contradiction; exact Hr.
    + cbn [w_lock rw_w]. apply t_imp with (w_own s); [exact H|].
      unfold w_own; cbn [w_lock rw_pcs w_wr]; intros u.
      destruct op', r; try contradiction; unfold fupd; destruct (Nat.eqb_spec u t) as [->|]; rewrite ?E; auto; congruence.
Qed.

Theorem rw_writers_guarded sched : (forall t, ~ In (t, WCall RLock) sched) -> race_free (trace_of w_step w_accs w_init sched).
Proof.
  intros Hs.
  assert (G : forall sched s tr, (forall t, ~ In (t, WCall RLock) sched) -> w_inv s tr -> race_free (tr ++ trace_of w_step w_accs s sched)).
  { clear. induction sched as [|[t op] sched IH]; intros s tr Hs H.
    - cbn. rewrite app_nil_r. apply (t_free _ _ _ (proj2 (proj2 (proj2 (proj2 H))))).
    - cbn [trace_of]. rewrite app_assoc. apply IH; [intros u Hu; apply (Hs u); now right|].
      apply w_inv_step; [|exact H]. intros ->. apply (Hs t). now left. }
  apply (G sched w_init []); [exact Hs|]. split; [now left|]. split; [discriminate|]. split; [reflexivity|]. split; [cbn; auto|].
  apply t_nil. unfold w_own. cbn. discriminate.
Qed.
