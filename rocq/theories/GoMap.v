(** Go maps as association lists without repeated keys, and strings.TrimSpace.
    Nothing here corresponds to lines of /repo. *)
From Coq Require Import ZArith List Bool Lia.
Import ListNotations.

Section Maps.
Context {K V : Type} (eqb : K -> K -> bool).

(** [m[k]] (Go language; no /repo lines). *)
Fixpoint mfind (k : K) (m : list (K * V)) : option V :=
  match m with
  | [] => None
  | (k', v) :: t => if eqb k k' then Some v else mfind k t
  end.
(** [m[k] = v] (Go language; no /repo lines). *)
Fixpoint mset (k : K) (v : V) (m : list (K * V)) : list (K * V) :=
  match m with
  | [] => [(k, v)]
  | (k', v') :: t => if eqb k k' then (k, v) :: t else (k', v') :: mset k v t
  end.
(** [delete(m, k)] (Go language; no /repo lines). *)
Definition mdel (k : K) (m : list (K * V)) : list (K * V) :=
  filter (fun p => negb (eqb k (fst p))) m.

Hypothesis eqb_eq : forall x y, eqb x y = true <-> x = y.

Lemma eqb_refl x : eqb x x = true.
Proof. now apply eqb_eq. Qed.
Lemma eqb_neq x y : x <> y -> eqb x y = false.
Proof. intros H. destruct (eqb x y) eqn:E; auto. apply eqb_eq in E. contradiction. Qed.

Lemma mfind_mset k k' v m : mfind k (mset k' v m) = if eqb k k' then Some v else mfind k m.
Proof.
  induction m as [|[k1 v1] t IH]; cbn; [reflexivity|].
  destruct (eqb k' k1) eqn:E; cbn.
  - apply eqb_eq in E. subst k1. destruct (eqb k k'); reflexivity.
  - destruct (eqb k k1) eqn:E1; [|exact IH]. apply eqb_eq in E1. subst k1.
    destruct (eqb k k') eqn:E2; [|reflexivity]. apply eqb_eq in E2. subst k'. rewrite eqb_refl in E. discriminate.
Qed.

Lemma mfind_mdel k k' m : mfind k (mdel k' m) = if eqb k k' then None else mfind k m.
Proof.
  unfold mdel. induction m as [|[k1 v1] t IH]; cbn.
  - destruct (eqb k k'); reflexivity.
  - destruct (eqb k' k1) eqn:E; cbn.
    + rewrite IH. apply eqb_eq in E. subst k1. destruct (eqb k k') eqn:E2; reflexivity.
    + destruct (eqb k k1) eqn:E1; [|exact IH]. apply eqb_eq in E1. subst k1.
      destruct (eqb k k') eqn:E2; [|reflexivity]. apply eqb_eq in E2. subst k'. rewrite eqb_refl in E. discriminate.
Qed.

Lemma mfind_in k v m : NoDup (map fst m) -> (mfind k m = Some v <-> In (k, v) m).
Proof.
  induction m as [|[k1 v1] t IH]; cbn; intros N; [split; [discriminate|tauto]|].
  inversion N as [|? ? N1 N2]; subst. destruct (eqb k k1) eqn:E.
  - apply eqb_eq in E. subst k1. split.
    + intros H. injection H as ->. auto.
    + intros [H|H]; [now injection H as ->|]. exfalso. apply N1. change k with (fst (k, v)). now apply in_map.
  - rewrite IH by auto. split; auto. intros [H|H]; auto. injection H as -> ->. rewrite eqb_refl in E. discriminate.
Qed.

Lemma mfind_none k m : mfind k m = None <-> ~ In k (map fst m).
Proof.
  induction m as [|[k1 v1] t IH]; cbn; [tauto|]. destruct (eqb k k1) eqn:E.
  - apply eqb_eq in E. subst. split; [discriminate|tauto].
  - rewrite IH. split; [|tauto]. intros H [->|H2]; [|tauto]. rewrite eqb_refl in E. discriminate.
Qed.

Lemma mset_new k v m : mfind k m = None -> mset k v m = m ++ [(k, v)].
Proof.
  induction m as [|[k1 v1] t IH]; cbn; [reflexivity|]. destruct (eqb k k1); [discriminate|].
  intros H. now rewrite IH.
Qed.

Lemma mset_keys k v m : map fst (mset k v m) = map fst m \/ map fst (mset k v m) = map fst m ++ [k].
Proof.
  induction m as [|[k1 v1] t IH]; cbn; auto. destruct (eqb k k1) eqn:E; cbn.
  - apply eqb_eq in E. subst. auto.
  - destruct IH as [->| ->]; auto.
Qed.

Lemma NoDup_snoc (l : list K) x : NoDup l -> ~ In x l -> NoDup (l ++ [x]).
Proof.
  induction l as [|y l IH]; cbn; intros N H.
  - repeat constructor. tauto.
  - inversion N; subst. constructor; [rewrite in_app_iff; cbn; intuition congruence|]. apply IH; tauto.
Qed.

Lemma mset_nodup k v m : NoDup (map fst m) -> NoDup (map fst (mset k v m)).
Proof.
  intros N. destruct (mfind k m) as [w|] eqn:E.
  - revert E N. induction m as [|[k1 v1] t IH]; cbn; [discriminate|]. intros E N.
    inversion N as [|? ? N1 N2]; subst. destruct (eqb k k1) eqn:E1.
    + apply eqb_eq in E1. subst k1. cbn. constructor; auto.
    + cbn. constructor; auto. intros Hin. apply N1.
      destruct (mset_keys k v t) as [Hk|Hk]; rewrite Hk in Hin; auto.
      apply in_app_iff in Hin. destruct Hin as [Hin|[->|[]]]; auto. rewrite eqb_refl in E1. discriminate.
  - rewrite mset_new, map_app by auto. apply NoDup_snoc; auto. now apply mfind_none.
Qed.

Lemma mdel_nodup k m : NoDup (map fst m) -> NoDup (map fst (mdel k m)).
Proof.
  unfold mdel. induction m as [|[k1 v1] t IH]; cbn; auto. intros N. inversion N as [|? ? N1 N2]; subst.
  destruct (negb (eqb k k1)); cbn; auto. constructor; auto.
  intros H. apply N1. apply in_map_iff in H. destruct H as ([k2 v2] & E & H). cbn in E. subst k2.
  apply filter_In in H. change k1 with (fst (k1, v2)). apply in_map. tauto.
Qed.
End Maps.
