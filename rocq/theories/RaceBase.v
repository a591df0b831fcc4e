(** What goroutines know: the events that happen before whatever they do next. *)
From Coq Require Import List Arith Lia Bool.
From Verif Require Import ConcBase RaceSpec.
Import ListNotations.
Local Open Scope nat_scope.

Section Base.
Context {L : Type}.
Implicit Types (tr : trace L) (a b : acc L).

Lemma nth_snoc tr e i x : nth_error (tr ++ [e]) i = Some x ->
  nth_error tr i = Some x \/ (i = length tr /\ x = e).
Proof.
  intros H. destruct (Nat.lt_ge_cases i (length tr)) as [Hl|Hl].
  - rewrite nth_error_app1 in H by exact Hl. now left.
  - rewrite nth_error_app2 in H by exact Hl. right.
    destruct (i - length tr) as [|k] eqn:E; cbn in H; [split; [lia|congruence]|destruct k; discriminate].
Qed.
Lemma nth_lt tr i x : nth_error tr i = Some x -> i < length tr.
Proof. intros H. apply nth_error_Some. congruence. Qed.
Lemma nth_old tr e i x : nth_error tr i = Some x -> nth_error (tr ++ [e]) i = Some x.
Proof. intros H. rewrite nth_error_app1; [exact H|now apply nth_lt in H]. Qed.
Lemma nth_new tr e : nth_error (tr ++ [e]) (length tr) = Some e.
Proof. rewrite nth_error_app2, Nat.sub_diag by lia. reflexivity. Qed.

Lemma hb_lt tr i j : hb tr i j -> i < j /\ j < length tr.
Proof.
  induction 1 as [i j t a b H1 H2 H3|i j (t & u & a & b & H1 & H2 & H3 & _)|i j k H1 IH1 H2 IH2].
  - split; [exact H1|now apply nth_lt in H3].
  - split; [exact H1|now apply nth_lt in H3].
  - lia.
Qed.
Lemma syncs_snoc tr e i j : syncs tr i j -> syncs (tr ++ [e]) i j.
Proof.
  intros (t & u & a & b & H1 & H2 & H3 & H4 & H5 & H6 & H7 & H8 & H9).
  exists t, u, a, b. repeat split; auto using nth_old.
  intros k v c Hk Hc. apply (H9 k v c); [exact Hk|].
  apply nth_snoc in Hc. destruct Hc as [Hc|[-> _]]; [exact Hc|]. apply nth_lt in H3. lia.
Qed.
Lemma hb_snoc tr e i j : hb tr i j -> hb (tr ++ [e]) i j.
Proof.
  induction 1 as [i j t a b H1 H2 H3|i j H|i j k H1 IH1 H2 IH2].
  - eapply hb_po; eauto using nth_old.
  - apply hb_sync. now apply syncs_snoc.
  - eapply hb_trans; eauto.
Qed.
(** Conversely, what is ordered inside the old part was ordered already. *)
Lemma hb_snoc_inv tr e i j : hb (tr ++ [e]) i j -> j < length tr -> hb tr i j.
Proof.
  induction 1 as [i j t a b H1 H2 H3|i j (t & u & a & b & H1 & H2 & H3 & H4 & H5 & H6 & H7 & H8 & H9)|i j k H1 IH1 H2 IH2]; intros Hj.
  - apply nth_snoc in H2, H3. destruct H2 as [H2|[-> _]]; [|lia]. destruct H3 as [H3|[-> _]]; [|lia].
    eapply hb_po; eauto.
  - apply nth_snoc in H2, H3. destruct H2 as [H2|[-> _]]; [|lia]. destruct H3 as [H3|[-> _]]; [|lia].
    apply hb_sync. exists t, u, a, b. repeat split; auto.
    intros k v c Hk Hc. apply (H9 k v c); [exact Hk|now apply nth_old].
  - apply hb_lt in H2 as H2'. eapply hb_trans; [apply IH1; lia|now apply IH2].
Qed.

(** The events that happen before the next access of [t]. *)
Definition kn tr (t i : nat) : Prop := exists j a, nth_error tr j = Some (t, a) /\ (i = j \/ hb tr i j).
(** The events that happen before whoever reads [x] next. *)
Definition kx tr (x : L) (i : nat) : Prop :=
  exists j u a, nth_error tr j = Some (u, a) /\ atomic a = true /\ writes a = true /\ loc_of a = x /\ (i = j \/ hb tr i j) /\
    forall k v c, j < k -> nth_error tr k = Some (v, c) -> loc_of c = x -> writes c = false.

Lemma kn_hb tr t b i : kn tr t i -> hb (tr ++ [(t, b)]) i (length tr).
Proof.
  intros (j & a & Hj & H). assert (H2 : hb (tr ++ [(t, b)]) j (length tr)).
  { eapply hb_po; [now apply nth_lt in Hj|apply nth_old; eauto|apply nth_new]. }
  destruct H as [->|H]; [exact H2|]. eapply hb_trans; [apply hb_snoc; exact H|exact H2].
Qed.
Lemma kn_snoc tr e t i : kn tr t i -> kn (tr ++ [e]) t i.
Proof.
  intros (j & a & Hj & H). exists j, a. split; [now apply nth_old|].
  destruct H as [->|H]; [now left|right; now apply hb_snoc].
Qed.
Lemma kn_self tr t a : kn (tr ++ [(t, a)]) t (length tr).
Proof. exists (length tr), a. split; [apply nth_new|now left]. Qed.
Lemma kn_own tr t a i : nth_error tr i = Some (t, a) -> kn tr t i.
Proof. intros H. exists i, a. split; [exact H|now left]. Qed.
Lemma kn_load tr t a i : atomic a = true -> reads a = true -> kx tr (loc_of a) i -> kn (tr ++ [(t, a)]) t i.
Proof.
  intros Ha Hr (j & u & b & Hj & H1 & H2 & H3 & H4 & H5). exists (length tr), a. split; [apply nth_new|right].
  assert (H6 : hb (tr ++ [(t, a)]) j (length tr)).
  { apply hb_sync. exists u, t, b, a. apply nth_lt in Hj as Hl. repeat split; auto using nth_old, nth_new.
    intros k v c Hk Hc Hcl. apply (H5 k v c); [lia| |congruence].
    apply nth_snoc in Hc. destruct Hc as [Hc|[-> _]]; [exact Hc|lia]. }
  destruct H4 as [->|H4]; [exact H6|]. eapply hb_trans; [apply hb_snoc; exact H4|exact H6].
Qed.
Lemma kx_store tr t a i : atomic a = true -> writes a = true -> kn (tr ++ [(t, a)]) t i -> kx (tr ++ [(t, a)]) (loc_of a) i.
Proof.
  intros Ha Hw (j & b & Hj & H). exists (length tr), t, a. repeat split; auto using nth_new.
  - apply nth_snoc in Hj as Hj'. destruct Hj' as [Hj'|[-> E]].
    + right. assert (H2 : hb (tr ++ [(t, a)]) j (length tr)).
      { eapply hb_po; [now apply nth_lt in Hj'|exact Hj|apply nth_new]. }
      destruct H as [->|H]; [exact H2|]. eapply hb_trans; eauto.
    + exact H.
  - intros k v c Hk Hc. apply nth_lt in Hc. rewrite app_length in Hc. cbn in Hc. lia.
Qed.
Lemma kx_other tr t a x i : (writes a = true -> loc_of a <> x) -> kx tr x i -> kx (tr ++ [(t, a)]) x i.
Proof.
  intros Ha (j & u & b & Hj & H1 & H2 & H3 & H4 & H5). exists j, u, b. repeat split; auto using nth_old.
  - destruct H4 as [->|H4]; [now left|right; now apply hb_snoc].
  - intros k v c Hk Hc Hl. apply nth_snoc in Hc. destruct Hc as [Hc|[-> Hc]]; [now apply (H5 k v c)|].
    injection Hc as -> ->. destruct (writes a) eqn:E; [|reflexivity]. exfalso. now apply Ha.
Qed.
(** An atomic operation that reads and writes passes on what was known. *)
Lemma kx_rmw tr t x i : kx tr x i \/ kn tr t i -> kx (tr ++ [(t, ARmw x)]) x i.
Proof.
  intros [H|H]; apply (kx_store tr t (ARmw x)); try reflexivity.
  - now apply kn_load.
  - now apply kn_snoc.
Qed.
Lemma kx_rmw_self tr t x : kx (tr ++ [(t, ARmw x)]) x (length tr).
Proof. apply (kx_store tr t (ARmw x)); try reflexivity. apply kn_self. Qed.

Lemma free_nil : race_free (@nil (nat * acc L)).
Proof. intros i j (t & u & a & b & _ & H & _). destruct i; discriminate. Qed.
Lemma free_snoc tr t a : race_free tr ->
  (forall i u b, nth_error tr i = Some (u, b) -> u <> t -> conflict b a -> kn tr t i) ->
  race_free (tr ++ [(t, a)]).
Proof.
  intros F H i j (u & v & b & c & Hij & Hi & Hj & Hne & Hc & Hn).
  apply nth_snoc in Hi, Hj. destruct Hj as [Hj|[-> E]].
  - destruct Hi as [Hi|[-> _]]; [|apply nth_lt in Hj; lia].
    apply (F i j). exists u, v, b, c. repeat split; auto; try apply Hc. intros Hh. apply Hn. now apply hb_snoc.
  - injection E as -> ->. destruct Hi as [Hi|[-> _]]; [|lia].
    apply Hn. apply kn_hb. now apply (H i u b).
Qed.
(** An access to a location that is only touched atomically needs nothing. *)
Lemma free_atomic tr t a : race_free tr -> atomic a = true ->
  (forall i u b, nth_error tr i = Some (u, b) -> loc_of b = loc_of a -> atomic b = true) ->
  race_free (tr ++ [(t, a)]).
Proof.
  intros F Ha H. apply free_snoc; [exact F|]. intros i u b Hi _ (Hl & _ & [Hb|Hb]); [|congruence].
  rewrite (H i u b Hi Hl) in Hb. discriminate.
Qed.

Section Run.
Context {S Op E : Type} (step : S -> nat -> Op -> S * list E) (accs : S -> nat -> Op -> list (acc L)).
Lemma trace_of_app s0 sc1 sc2 : trace_of step accs s0 (sc1 ++ sc2) =
  trace_of step accs s0 sc1 ++ trace_of step accs (fold_left (fun s e => fst (step s (fst e) (snd e))) sc1 s0) sc2.
Proof.
  revert s0. induction sc1 as [|[t op] sc1 IH]; intros s0; [reflexivity|]. cbn. rewrite IH. now rewrite app_assoc.
Qed.
(** Invariants of a run together with its accesses. *)
Lemma trace_inv (P : S -> trace L -> Prop) :
  (forall s tr t op, P s tr -> P (fst (step s t op)) (tr ++ map (pair t) (accs s t op))) ->
  forall sched s tr, P s tr -> P (fold_left (fun s e => fst (step s (fst e) (snd e))) sched s) (tr ++ trace_of step accs s sched).
Proof.
  intros Hs sched. induction sched as [|[t op] sched IH]; intros s tr H; cbn.
  - now rewrite app_nil_r.
  - rewrite app_assoc. apply IH. now apply Hs.
Qed.
End Run.
End Base.
