From Coq Require Import ZArith List Bool Lia Arith Sorted.
From Verif Require Import GoBase ConcBase SpinProofs RandModel RandSpec RandProofs StrRandModel StrRandSpec StrRandProofs.
Import ListNotations.
Open Scope Z_scope.

Local Notation L := (lcg 32 7368787 2750159).

Definition shown (seed : Z) (e : nat * nat * list nat) : nat * nat * list Z :=
  (fst (fst e), snd (fst e), map (letter seed) (snd e)).

Definition okps (k : nat) (ps : list nat) : Prop := StronglySorted lt ps /\ Forall (fun p => (p < k)%nat) ps.

(** [P t]: positions drawn by the call of goroutine [t]; [D]: the finished calls. *)
Definition sr_inv (seed : Z) (s : sr_state) (k : nat) (P : nat -> list nat) (D : list (nat * nat * list nat)) : Prop :=
  sr_seed s = L k seed /\
  (forall t, okps k (P t)) /\
  (forall t, match sr_pcs s t with
             | SIdle => P t = []
             | SLoop l b n => b = map (letter seed) (P t) /\ (length (P t) + n = l)%nat
             end) /\
  (forall t u p, t <> u -> In p (P t) -> ~ In p (P u)) /\
  (forall t p, In p (P t) -> ~ In p (concat (map snd D))) /\
  Forall (fun e => length (snd e) = snd (fst e) /\ okps k (snd e)) D /\
  NoDup (concat (map snd D)).

Lemma ss_snoc : forall l k, StronglySorted lt l -> Forall (fun p => (p < k)%nat) l -> StronglySorted lt (l ++ [k]).
Proof.
  induction l as [|a l IH]; intros k S F; cbn [app].
  - repeat constructor.
  - inversion S; inversion F; subst. constructor; [auto|]. apply Forall_app. split; [auto|]. constructor; auto.
Qed.

Lemma okps_mono : forall k ps, okps k ps -> okps (S k) ps.
Proof. intros k ps [A B]. split; [exact A|]. eapply Forall_impl; [|exact B]. cbn. intros. lia. Qed.

Lemma ss_nodup : forall l, StronglySorted lt l -> NoDup l.
Proof.
  induction l as [|a l IH]; intros S; inversion S as [|? ? S1 F1]; subst; constructor; auto.
  intros H. rewrite Forall_forall in F1. apply F1 in H. lia.
Qed.

Lemma nodup_app_intro : forall (A : Type) (l1 l2 : list A), NoDup l1 -> NoDup l2 ->
  (forall x, In x l1 -> ~ In x l2) -> NoDup (l1 ++ l2).
Proof.
  induction l1 as [|a l1 IH]; intros l2 H1 H2 H; cbn [app]; auto.
  inversion H1; subst. constructor.
  - rewrite in_app_iff. intros [X|X]; [auto|]. apply (H a); [left; reflexivity|exact X].
  - apply IH; auto. intros x Hx. apply H. right. exact Hx.
Qed.

Lemma sr_conc_inv : forall seed sched,
  let r := crun sr_cstep (sr_init seed) sched in
  exists k P D, sr_inv seed (fst r) k P D /\ rets (snd r) = map (shown seed) D.
Proof.
  intros seed sched. induction sched as [|[t len] sched IH] using rev_ind; cbn zeta.
  - exists 0%nat, (fun _ => []), []. split; [|reflexivity].
    unfold sr_inv. cbn. repeat split; auto; constructor.
  - cbn zeta in IH. destruct IH as (k & P & D & I & R).
    rewrite crun_snoc. destruct (crun sr_cstep (sr_init seed) sched) as [s evs]. cbn [fst snd] in *.
    destruct I as (Is & Ik & Ip & Id & Idd & If & In0).
    pose proof (Ip t) as It. cbn [fst snd].
    unfold sr_cstep. destruct (sr_pcs s t) as [|l b [|n]] eqn:E; cbn [fst snd].
    + exists k, P, D. split.
      * split; [exact Is|]. split; [exact Ik|]. split.
        { intros u. cbn [sr_pcs]. unfold fupd. destruct (Nat.eqb_spec u t) as [->|]; [|apply Ip].
          rewrite It. split; reflexivity. }
        repeat (split; [assumption|]). assumption.
      * rewrite rets_app. cbn [rets]. rewrite app_nil_r. exact R.
    + exists k, (fupd P t []), (D ++ [(t, l, P t)]). split.
      * split; [exact Is|]. split.
        { intros u. unfold fupd. destruct (Nat.eqb_spec u t); [split; constructor|apply Ik]. }
        split.
        { intros u. cbn [sr_pcs]. unfold fupd. destruct (Nat.eqb_spec u t); [reflexivity|apply Ip]. }
        split.
        { intros u v p N. unfold fupd. destruct (Nat.eqb_spec u t), (Nat.eqb_spec v t); cbn; try tauto.
          apply Id. exact N. }
        rewrite map_app, concat_app. cbn [map concat snd]. rewrite app_nil_r.
        split.
        { intros u p. unfold fupd. destruct (Nat.eqb_spec u t); [cbn; tauto|].
          intros Hp. rewrite in_app_iff. intros [X|X]; [exact (Idd u p Hp X)|exact (Id u t p n Hp X)]. }
        split.
        { apply Forall_app. split; [exact If|]. constructor; [|constructor]. cbn [fst snd].
          split; [lia|apply Ik]. }
        apply nodup_app_intro; [exact In0|apply ss_nodup; apply Ik|].
        intros x H1 H2. exact (Idd t x H2 H1).
      * rewrite rets_app, R, map_app. cbn [rets map app]. unfold shown at 3. cbn [fst snd].
        destruct It as [-> _]. reflexivity.
    + rewrite draw_eq. cbn [fst snd]. exists (S k), (fupd P t (P t ++ [k])), D. split.
      * split. { cbn [sr_seed]. rewrite Is, <- lcg_add. reflexivity. }
        split.
        { intros u. unfold fupd. destruct (Nat.eqb_spec u t); [|apply okps_mono; apply Ik].
          destruct (Ik t) as [A B]. split; [apply ss_snoc; assumption|]. apply Forall_app.
          split; [eapply Forall_impl; [|exact B]; cbn; intros; lia|repeat constructor]. }
        split.
        { intros u. cbn [sr_pcs]. unfold fupd. destruct (Nat.eqb_spec u t) as [->|]; [|apply Ip].
          destruct It as [-> It]. rewrite map_app, app_length. cbn [map length]. split; [|lia].
          f_equal. f_equal. rewrite Is, letter_shift. f_equal. lia. }
        assert (Fresh: forall u, ~ In k (P u)).
        { intros u X. destruct (Ik u) as [_ B]. rewrite Forall_forall in B. apply B in X. lia. }
        split.
        { intros u v p N. unfold fupd. destruct (Nat.eqb_spec u t), (Nat.eqb_spec v t); subst; try tauto.
          - rewrite in_app_iff. intros [X|[<-|[]]]; [exact (Id t v p N X)|apply Fresh].
          - intros X. rewrite in_app_iff. intros [Y|[<-|[]]]; [exact (Id u t p N X Y)|exact (Fresh _ X)].
          - apply Id. exact N. }
        assert (FreshD: ~ In k (concat (map snd D))).
        { intros X. apply in_concat in X as (ps & X & Y). apply in_map_iff in X as (e & <- & X).
          rewrite Forall_forall in If. destruct (If e X) as [_ [_ B]]. rewrite Forall_forall in B. apply B in Y. lia. }
        split.
        { intros u p. unfold fupd. destruct (Nat.eqb_spec u t); [|apply Idd].
          rewrite in_app_iff. intros [X|[<-|[]]]; [exact (Idd t p X)|exact FreshD]. }
        split; [|exact In0].
        eapply Forall_impl; [|exact If]. cbn. intros e [A B]. split; [exact A|apply okps_mono; exact B].
      * rewrite rets_app. cbn [rets]. rewrite app_nil_r. exact R.
Qed.

Lemma sr_concurrent : forall seed sched, exists D : list (nat * nat * list nat),
  rets (snd (crun sr_cstep (sr_init seed) sched)) =
    map (fun e => (fst (fst e), snd (fst e), map (letter seed) (snd e))) D /\
  Forall (fun e => length (snd e) = snd (fst e) /\ StronglySorted lt (snd e)) D /\
  NoDup (concat (map snd D)).
Proof.
  intros seed sched. destruct (sr_conc_inv seed sched) as (k & P & D & I & R). cbn zeta in *.
  exists D. split; [exact R|]. destruct I as (_ & _ & _ & _ & _ & F & N). split; [|exact N].
  eapply Forall_impl; [|exact F]. cbn. intros e [A [B _]]. split; assumption.
Qed.
