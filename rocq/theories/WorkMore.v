From Coq Require Import ZArith List Bool Arith Lia.
From Verif Require Import GoBase GoLists GoStrings ConcBase SpinProofs PathModel PathSpec PathProofs PathMore WorkModel WorkSpec WorkProofs.
Import ListNotations.
Open Scope Z_scope.

Fixpoint place_eqb (a b : list (list Z)) : bool :=
  match a, b with
  | [], [] => true
  | x :: a, y :: b => str_eqb x y && place_eqb a b
  | _, _ => false
  end.
Lemma place_eqb_eq : forall a b, place_eqb a b = true <-> a = b.
Proof.
  induction a as [|x a IH]; intros [|y b]; cbn; split; intros H; try discriminate; try reflexivity.
  - apply andb_prop in H as [A B]. apply str_eqb_eq in A. apply IH in B. congruence.
  - injection H as -> ->. apply andb_true_intro. split; [apply str_eqb_eq; reflexivity|apply IH; reflexivity].
Qed.

(** The directories /, /a and /b. *)
Definition dirs2 (p : list (list Z)) : bool := place_eqb p [] || place_eqb p [[97]] || place_eqb p [[98]].
Lemma dirs2_tree : tree dirs2.
Proof.
  split; [reflexivity|]. intros x p H. unfold dirs2 in H.
  apply orb_prop in H as [H|H]; [apply orb_prop in H as [H|H]|]; apply place_eqb_eq in H; try discriminate;
    injection H as -> ->; (split; [|reflexivity]); repeat split; try discriminate; cbn; intuition discriminate.
Qed.

Lemma chdir_more : exists dirs c p, tree dirs /\ dirs c = true /\ ~ can_follow dirs c p /\
  work_step dirs (work_init c) (WOsChdir p) = Ok (work_init c, WErr true) /\
  work_step dirs (work_init c) (WChdir p) = Ok (work_init c, WErr false) /\ p <> [].
Proof.
  exists dirs2, [[97]], [120; 47; 46; 46]. split; [apply dirs2_tree|]. split; [reflexivity|]. split.
  - intros [_ H]. specialize (H [120] [47; 46; 46] eq_refl). discriminate H. right. eexists. reflexivity.
  - repeat split. discriminate.
Qed.

Lemma work_path_false : exists dirs c ops w obs p q, tree dirs /\ dirs c = true /\
  run_ops (work_step dirs) (work_init c) ops = Ok (w, obs) /\
  work_path dirs w p /\ working_directory dirs w q /\ p <> q.
Proof.
  exists dirs2, [[97]], [WOsChdir [47; 98]]. do 2 eexists. exists [47; 97], [47; 98].
  split; [apply dirs2_tree|]. split; [reflexivity|]. split; [vm_compute; reflexivity|].
  split; [reflexivity|]. split; [reflexivity|]. discriminate.
Qed.

Lemma relate_work_false : exists dirs c ops w obs p r, tree dirs /\ dirs c = true /\ Forall own_chdir ops /\
  run_ops (work_step dirs) (work_init c) ops = Ok (w, obs) /\
  work_step dirs w (WRelate p) = Ok (w, WPath r) /\ leads (k_cwd w) r <> leads (k_cwd w) p.
Proof.
  exists dirs2, [[97]], [WChdir [47; 98]]. do 2 eexists. exists [120], [46].
  split; [apply dirs2_tree|]. split; [reflexivity|]. split; [repeat constructor|]. split; [vm_compute; reflexivity|].
  split; [reflexivity|]. discriminate.
Qed.

Lemma go_path_false : exists e r from, ~ In 58 e /\ e <> [] /\ leads from (go_path (e ++ 58 :: r)) <> [115; 114; 99] :: leads from e.
Proof. exists [47; 97], [47; 98], []. split; [cbn; intuition discriminate|]. split; discriminate. Qed.

Lemma go_path_one : forall e from, ~ In 58 e -> ~ In 59 e -> e <> [] -> leads from (go_path e) = [115; 114; 99] :: leads from e.
Proof.
  intros e from _ N NE. rewrite <- (app_nil_r e) at 1. apply go_path_first; auto.
Qed.

Lemma conc_false : exists dirs c sched p q, tree dirs /\ dirs c = true /\
  let s := fst (crun (ch_step dirs) (ch_init c) sched) in
  (forall t, outside s t) /\ work_path dirs (ch_work s) p /\ working_directory dirs (ch_work s) q /\ p <> q.
Proof.
  exists dirs2, [], [(0%nat, [97]); (0%nat, []); (0%nat, []); (1%nat, [47; 98]); (1%nat, []); (1%nat, []); (1%nat, []); (0%nat, [])], [47; 97], [47; 98].
  split; [apply dirs2_tree|]. split; [reflexivity|]. cbv zeta. split; [|split; [vm_compute; reflexivity|split; [vm_compute; reflexivity|discriminate]]].
  intros t. unfold outside. cbn. unfold fupd. destruct (t =? 0)%nat; [reflexivity|]. destruct (t =? 1)%nat; reflexivity.
Qed.

Lemma chdir_exact : (forall dirs c ops w obs p, tree dirs -> dirs c = true ->
    run_ops (work_step dirs) (work_init c) ops = Ok (w, obs) ->
    (dirs (leads (k_cwd w) p) = true /\
     work_step dirs w (WChdir p) = Ok (Work (leads (k_cwd w) p) (path_of (leads (k_cwd w) p)), WErr false)) \/
    (dirs (leads (k_cwd w) p) = false /\ work_step dirs w (WChdir p) = Ok (w, WErr true))) /\
  (forall dirs c ops w obs p, tree dirs -> dirs c = true ->
    run_ops (work_step dirs) (work_init c) ops = Ok (w, obs) ->
    (can_follow dirs (k_cwd w) p /\
     work_step dirs w (WOsChdir p) = Ok (Work (leads (k_cwd w) p) (k_cached w), WErr false) /\
     work_step dirs w (WChdir p) = Ok (Work (leads (k_cwd w) p) (path_of (leads (k_cwd w) p)), WErr false)) \/
    (~ can_follow dirs (k_cwd w) p /\ work_step dirs w (WOsChdir p) = Ok (w, WErr true))) /\
  (exists dirs c p, tree dirs /\ dirs c = true /\ ~ can_follow dirs c p /\
    work_step dirs (work_init c) (WOsChdir p) = Ok (work_init c, WErr true) /\
    work_step dirs (work_init c) (WChdir p) = Ok (work_init c, WErr false) /\ p <> []).
Proof. split; [exact chdir_goes|]. split; [exact os_chdir_goes|exact chdir_more]. Qed.

Lemma relate_go_all : (forall e r p t u from, ~ In 59 e -> e = 47 :: u -> (r = [] \/ exists r', r = 59 :: r') -> p = 47 :: t ->
    leads (leads from (go_path (e ++ r))) (relate_go (e ++ r) p) = leads from p) /\
  (forall cs r ds, Forall name cs -> cs <> [] -> (forall x, In x cs -> ~ In 59 x) ->
    (r = [] \/ exists r', r = 59 :: r') -> Forall name ds ->
    relate_go (abs_path cs ++ r) (abs_path (cs ++ [115; 114; 99] :: ds)) = rel_path ds).
Proof. split; [exact relate_go_leads|exact relate_go_below]. Qed.

Lemma one_ex : one_at_a_time dirs2 [] [(0%nat, [97]); (0%nat, []); (0%nat, []); (0%nat, []); (1%nat, [46; 46; 47; 98]); (1%nat, []); (1%nat, []); (1%nat, [])].
Proof.
  intros l1 l2 E t u N. unfold outside.
  do 9 (destruct l1 as [|e l1];
    [clear E; destruct t as [|[|t]], u as [|[|u]]; first [congruence | left; vm_compute; reflexivity | right; vm_compute; reflexivity]
    |first [discriminate E|injection E as <- E]]).
Qed.
