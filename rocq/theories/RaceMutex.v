(** What a sync.RWMutex does for the order of the accesses to the data it guards. *)
From Coq Require Import List Bool Arith Lia.
From Verif Require Import RaceSpec RaceBase.
Import ListNotations.
Local Open Scope nat_scope.

Section Mutex.
Context {L : Type} (mu : L) (rd : nat -> L) (data : L -> Prop).
Context (rd_inj : forall t u, rd t = rd u -> t = u) (rd_mu : forall t, rd t <> mu).
Context (data_mu : ~ data mu) (data_rd : forall t, ~ data (rd t)).

Record mj (w : option nat) (rs seen : list nat) (tr : trace L) : Prop := {
  m_w : forall t, w = Some t -> forall i u a, nth_error tr i = Some (u, a) -> data (loc_of a) -> kn tr t i;
  m_n : w = None -> forall i u a, nth_error tr i = Some (u, a) -> data (loc_of a) -> writes a = true -> kx tr mu i;
  m_r : w = None -> forall i u a, nth_error tr i = Some (u, a) -> data (loc_of a) -> writes a = false ->
    kx tr mu i \/ In u rs \/ (In u seen /\ kx tr (rd u) i);
  m_c : forall t, In t rs -> forall i u a, nth_error tr i = Some (u, a) -> data (loc_of a) -> writes a = true -> kn tr t i;
  m_x : w <> None -> rs = [] }.

Lemma mj_nil : mj None [] [] [].
Proof. constructor; try congruence; try (intros; now destruct i); contradiction. Qed.

Lemma mj_other w rs seen tr t a : mj w rs seen tr -> ~ data (loc_of a) ->
  (writes a = true -> loc_of a <> mu /\ forall u, loc_of a <> rd u) -> mj w rs seen (tr ++ [(t, a)]).
Proof.
  intros H Hd Hw. constructor.
  - intros v Ev i u b Hi Hb. apply nth_snoc in Hi. destruct Hi as [Hi|[-> E]]; [|injection E as -> ->; contradiction].
    apply kn_snoc. eapply (m_w _ _ _ _ H); eauto.
  - intros Ev i u b Hi Hb Wb. apply nth_snoc in Hi. destruct Hi as [Hi|[-> E]]; [|injection E as -> ->; contradiction].
    apply kx_other; [intros W; apply (Hw W)|]. eapply (m_n _ _ _ _ H); eauto.
  - intros Ev i u b Hi Hb Wb. apply nth_snoc in Hi. destruct Hi as [Hi|[-> E]]; [|injection E as -> ->; contradiction].
    destruct (m_r _ _ _ _ H Ev i u b Hi Hb Wb) as [K|[K|[K1 K2]]]; [left|right; now left|right; right; split; [exact K1|]]; (apply kx_other; [intros W; apply (Hw W)|assumption]).
  - intros v Hv i u b Hi Hb Wb. apply nth_snoc in Hi. destruct Hi as [Hi|[-> E]]; [|injection E as -> ->; contradiction].
    apply kn_snoc. eapply (m_c _ _ _ _ H); eauto.
  - apply (m_x _ _ _ _ H).
Qed.

Definition holds (w : option nat) (rs : list nat) (t : nat) (a : acc L) : Prop :=
  w = Some t \/ (w = None /\ In t rs /\ writes a = false).

Lemma mj_knows w rs seen tr t a i u b : mj w rs seen tr -> holds w rs t a -> data (loc_of a) ->
  nth_error tr i = Some (u, b) -> conflict b a -> kn tr t i.
Proof.
  intros H [E|(E & Hr & Wa)] Hd Hi (Ec & [Wb|W] & _); try congruence.
  - apply (m_w _ _ _ _ H t E i u b Hi). now rewrite Ec.
  - apply (m_w _ _ _ _ H t E i u b Hi). now rewrite Ec.
  - apply (m_c _ _ _ _ H t Hr i u b Hi); [now rewrite Ec|exact Wb].
Qed.

Lemma mj_data w rs seen tr t a : mj w rs seen tr -> holds w rs t a -> data (loc_of a) -> mj w rs seen (tr ++ [(t, a)]).
Proof.
  intros H Hh Hd.
  assert (Na : writes a = true -> loc_of a <> mu /\ forall u, loc_of a <> rd u).
  { intros _. split; [intros E; apply data_mu; now rewrite <- E|intros u E; apply (data_rd u); now rewrite <- E]. }
  constructor.
  - intros v Ev i u b Hi Hb. apply nth_snoc in Hi. destruct Hi as [Hi|[-> E]].
    + apply kn_snoc. eapply (m_w _ _ _ _ H); eauto.
    + injection E as -> ->. destruct Hh as [E|(E & _)]; [|congruence]. assert (v = t) as -> by congruence. apply kn_self.
  - intros Ev i u b Hi Hb Wb. destruct Hh as [E|(E & Hr & Wa)]; [congruence|]. apply nth_snoc in Hi. destruct Hi as [Hi|[-> E']].
    + apply kx_other; [intros W; apply (Na W)|]. eapply (m_n _ _ _ _ H); eauto.
    + congruence.
  - intros Ev i u b Hi Hb Wb. destruct Hh as [E|(E & Hr & Wa)]; [congruence|]. apply nth_snoc in Hi. destruct Hi as [Hi|[-> E']].
    + destruct (m_r _ _ _ _ H Ev i u b Hi Hb Wb) as [K|[K|[K1 K2]]]; [left|right; now left|right; right; split; [exact K1|]]; (apply kx_other; [intros W; apply (Na W)|assumption]).
    + assert (u = t) as -> by congruence. right. now left.
  - intros v Hv i u b Hi Hb Wb. apply nth_snoc in Hi. destruct Hi as [Hi|[-> E]].
    + apply kn_snoc. eapply (m_c _ _ _ _ H); eauto.
    + destruct Hh as [E'|(E' & Hr & Wa)]; [|congruence]. rewrite (m_x _ _ _ _ H) in Hv by congruence. contradiction.
  - apply (m_x _ _ _ _ H).
Qed.

Lemma mj_loads l : forall w rs seen tr t, mj w rs seen tr -> (forall x, In x l -> ~ data x) ->
  mj w rs seen (tr ++ map (fun x : L => (t, ALoad x)) l) /\
  (forall x i, kx tr x i -> kx (tr ++ map (fun x : L => (t, ALoad x)) l) x i) /\
  (forall i, kn tr t i -> kn (tr ++ map (fun x : L => (t, ALoad x)) l) t i) /\
  (forall x i, In x l -> kx tr x i -> kn (tr ++ map (fun x : L => (t, ALoad x)) l) t i).
Proof.
  induction l as [|y l IH]; intros w rs seen tr t H Hl.
  - cbn. rewrite app_nil_r. repeat split; auto; try contradiction; apply H.
  - cbn [map]. change ((t, ALoad y) :: map (fun x => (t, ALoad x)) l) with ([(t, ALoad y)] ++ map (fun x : L => (t, ALoad x)) l). rewrite app_assoc.
    destruct (IH w rs seen (tr ++ [(t, ALoad y)]) t) as (A & B & C & D).
    { apply mj_other; [exact H|apply Hl; now left|discriminate]. }
    { intros x Hx. apply Hl. now right. }
    split; [exact A|]. split; [intros x i K; apply B; apply kx_other; [discriminate|exact K]|].
    split; [intros i K; apply C; now apply kn_snoc|].
    intros x i [<-|Hx] K; [apply C; now apply (kn_load tr t (ALoad y))|]. apply (D x i Hx). apply kx_other; [discriminate|exact K].
Qed.

Lemma loads_nodata (tr : trace L) (t : nat) (l : list L) i u a : (forall x, In x l -> ~ data x) -> nth_error (tr ++ map (fun x : L => (t, ALoad x)) l) i = Some (u, a) ->
  data (loc_of a) -> nth_error tr i = Some (u, a).
Proof.
  intros Hl Hi Hd. destruct (Nat.lt_ge_cases i (length tr)) as [Hlt|Hge]; [now rewrite nth_error_app1 in Hi|].
  rewrite nth_error_app2 in Hi by lia. apply nth_error_In in Hi. apply in_map_iff in Hi. destruct Hi as (x & E & Hx).
  injection E as _ <-. now apply Hl in Hx.
Qed.

Lemma mj_lock seen tr t : mj None [] seen tr ->
  mj (Some t) [] seen (tr ++ map (fun x : L => (t, ALoad x)) (mu :: map rd seen)).
Proof.
  intros H. assert (Hl : forall x, In x (mu :: map rd seen) -> ~ data x).
  { intros x [<-|Hx]; [exact data_mu|]. apply in_map_iff in Hx. destruct Hx as (u & <- & _). apply data_rd. }
  destruct (mj_loads (mu :: map rd seen) None [] seen tr t H Hl) as (A & B & C & D).
  constructor; try discriminate; try contradiction; [|reflexivity].
  intros v E i u a Hi Hd. injection E as <-. apply (loads_nodata tr t _ i u a Hl) in Hi; [|exact Hd].
  destruct (writes a) eqn:Wa.
  - apply (D mu); [now left|]. eapply (m_n _ _ _ _ H); eauto.
  - destruct (m_r _ _ _ _ H eq_refl i u a Hi Hd Wa) as [K|[[]|[K1 K2]]].
    + apply (D mu); [now left|exact K].
    + apply (D (rd u)); [right; now apply in_map|exact K2].
Qed.

Lemma mj_unlock seen tr t : mj (Some t) [] seen tr -> mj None [] seen (tr ++ [(t, AStore mu)]).
Proof.
  intros H.
  assert (K : forall i u a, nth_error (tr ++ [(t, AStore mu)]) i = Some (u, a) -> data (loc_of a) -> kx (tr ++ [(t, AStore mu)]) mu i).
  { intros i u a Hi Hd. apply nth_snoc in Hi. destruct Hi as [Hi|[-> E]]; [|injection E as -> ->; contradiction].
    apply (kx_store tr t (AStore mu)); try reflexivity. apply kn_snoc. eapply (m_w _ _ _ _ H); eauto. }
  constructor; try discriminate; try contradiction; eauto; congruence.
Qed.

Lemma mj_rlock rs seen tr t : mj None rs seen tr -> mj None (t :: rs) seen (tr ++ [(t, ALoad mu)]).
Proof.
  intros H.
  assert (O : forall i u a, nth_error (tr ++ [(t, ALoad mu)]) i = Some (u, a) -> data (loc_of a) -> nth_error tr i = Some (u, a)).
  { intros i u a Hi Hd. apply nth_snoc in Hi. destruct Hi as [Hi|[-> E]]; [exact Hi|injection E as -> ->; contradiction]. }
  constructor; try discriminate; try congruence.
  - intros _ i u a Hi Hd Wa. apply kx_other; [discriminate|]. eapply (m_n _ _ _ _ H); eauto.
  - intros _ i u a Hi Hd Wa. apply O in Hi; [|exact Hd].
    destruct (m_r _ _ _ _ H eq_refl i u a Hi Hd Wa) as [K|[K|[K1 K2]]]; [left|right; left; now right|right; right; split; [exact K1|]]; apply kx_other; auto; discriminate.
  - intros v Hv i u a Hi Hd Wa. apply O in Hi; [|exact Hd]. destruct Hv as [<-|Hv].
    + apply (kn_load tr t (ALoad mu)); try reflexivity. eapply (m_n _ _ _ _ H); eauto.
    + apply kn_snoc. eapply (m_c _ _ _ _ H); eauto.
Qed.

Lemma mj_runlock rs seen tr t : mj None rs seen tr ->
  mj None (remove Nat.eq_dec t rs) (t :: seen) (tr ++ [(t, AStore (rd t))]).
Proof.
  intros H.
  assert (O : forall i u a, nth_error (tr ++ [(t, AStore (rd t))]) i = Some (u, a) -> data (loc_of a) -> nth_error tr i = Some (u, a)).
  { intros i u a Hi Hd. apply nth_snoc in Hi. destruct Hi as [Hi|[-> E]]; [exact Hi|injection E as -> ->; now apply data_rd in Hd]. }
  constructor; try discriminate; try congruence.
  - intros _ i u a Hi Hd Wa. apply kx_other; [intros _; apply rd_mu|]. eapply (m_n _ _ _ _ H); eauto.
  - intros _ i u a Hi Hd Wa. apply O in Hi; [|exact Hd].
    destruct (Nat.eq_dec u t) as [->|N].
    + right. right. split; [now left|]. apply (kx_store tr t (AStore (rd t))); try reflexivity. apply kn_snoc. eapply kn_own. exact Hi.
    + assert (Nr : rd t <> rd u) by (intros E; apply N; now apply rd_inj in E).
      destruct (m_r _ _ _ _ H eq_refl i u a Hi Hd Wa) as [K|[K|[K1 K2]]].
      * left. apply kx_other; [intros _; apply rd_mu|exact K].
      * right. left. now apply in_in_remove.
      * right. right. split; [now right|]. apply kx_other; [intros _; exact Nr|exact K2].
  - intros v Hv i u a Hi Hd Wa. apply O in Hi; [|exact Hd]. apply in_remove in Hv. apply kn_snoc. eapply (m_c _ _ _ _ H); eauto. apply Hv.
Qed.
End Mutex.
