(** An RWSpinLock used by one call at a time, rightly or wrongly. *)
From Coq Require Import ZArith List Bool Lia ZifyBool.
From Verif Require Import GoBase ConcBase SpinModel SpinSpec SpinProofs SpinRW.
Import ListNotations.
Open Scope Z_scope.

Definition rw_after (s : bool * Z) (l : list (nat * rw_op)) : bool * Z := fold_left (fun s e => fst (rw_call s (snd e))) l s.
Lemma calls_snoc l : forall s t op, rw_calls s (l ++ [(t, op)]) = rw_calls s l ++ [Inv t op; Ret t op (snd (rw_call (rw_after s l) op))].
Proof. induction l as [|[u o] l IH]; intros s t op; cbn [rw_calls app]; [reflexivity|]. now rewrite IH. Qed.
Lemma after_snoc l s t op : rw_after s (l ++ [(t, op)]) = fst (rw_call (rw_after s l) op).
Proof. unfold rw_after. now rewrite fold_left_app. Qed.

Definition bit (b : bool) : Z := if b then 1 else 0.
Lemma bit0 b : (bit b =? 0) = negb b. Proof. now destruct b. Qed.
Lemma bit1 b : (bit b =? 1) = b. Proof. now destruct b. Qed.
(** Where the running call is, its state before it being [st]. *)
Definition mid (st : bool * Z) (op : rw_op) (pc : rw_pc) (w rc : Z) : Prop :=
  match pc with
  | PIdle => False
  | PWSpin i => op = WLock /\ w = bit (fst st) /\ rc = snd st /\ 0 <= i /\ (0 < i -> fst st = true)
  | PWAdd => op = WLock /\ fst st = false /\ w = 1 /\ rc = snd st
  | PWUAdd => op = WUnlock /\ w = bit (fst st) /\ rc = snd st
  | PWUCas => op = WUnlock /\ w = bit (fst st) /\ rc = i32 (snd st + 1073741824) /\ rc < 1073741824
  | PLoad i => op = RLock /\ w = bit (fst st) /\ rc = snd st /\ 0 <= i /\ (0 < i -> snd st < 0)
  | PAdd => op = RLock /\ w = bit (fst st) /\ rc = snd st /\ 0 <= snd st
  | PRSpin i => op = RLock /\ w = bit (fst st) /\ rc = i32 (snd st + 1) /\ rc = 1 /\ 0 <= snd st /\ 0 <= i /\ (0 < i -> fst st = true)
  | PRUAdd => op = RUnlock /\ w = bit (fst st) /\ rc = snd st
  | PRUCas => False
  | PRet o r => o = op /\ w = bit (fst (fst (rw_call st op))) /\ rc = snd (fst (rw_call st op)) /\ r = snd (rw_call st op)
  end.
Lemma i32_fold z : (z + 2147483648) mod 4294967296 - 2147483648 = i32 z. Proof. reflexivity. Qed.
Lemma i32_range z : -2147483648 <= i32 z < 2147483648.
Proof. unfold i32. pose proof (Z.mod_pos_bound (z + 2147483648) 4294967296). lia. Qed.
Lemma call_range st op : -2147483648 <= snd st < 2147483648 -> -2147483648 <= snd (fst (rw_call st op)) < 2147483648.
Proof.
  destruct st as [b n]. cbn [snd]. intros H. destruct op; cbn [rw_call]; rewrite ?i32_fold; cbv zeta; rewrite ?i32_fold;
    repeat match goal with |- context [if ?c then _ else _] => destruct c end; cbn [fst snd]; auto; apply i32_range.
Qed.
Lemma after_range l : forall st, -2147483648 <= snd st < 2147483648 -> -2147483648 <= snd (rw_after st l) < 2147483648.
Proof. induction l as [|[t op] l IH]; intros st H; [exact H|]. apply IH. now apply call_range. Qed.

(** One step inside a call. *)
Lemma mid_step s t op0 st op : -2147483648 <= snd st < 2147483648 -> mid st op (rw_pcs s t) (rw_w s) (rw_rc s) ->
  let s' := fst (rw_step s t op0) in
  (snd (rw_step s t op0) = [] /\ mid st op (rw_pcs s' t) (rw_w s') (rw_rc s')) \/
  (snd (rw_step s t op0) = [Ret t op (snd (rw_call st op))] /\ rw_pcs s' t = PIdle /\ rw_w s' = bit (fst (fst (rw_call st op))) /\ rw_rc s' = snd (fst (rw_call st op))).
Proof.
  intros Hr M. cbv zeta. unfold rw_step. destruct st as [b n]. cbn [fst snd] in *.
  destruct (rw_pcs s t) as [|i| | | |i| |i| | |o r] eqn:P; cbn [mid fst snd] in M.
  - destruct M.
  - destruct M as (-> & W & C & Hi & Hb). rewrite W, bit0. destruct (spin_max <? i) eqn:B.
    + left. cbn [fst snd rw_pcs rw_w rw_rc]. rewrite fupd_same. cbn [mid]. split; auto. cbn [rw_call].
      rewrite (Hb ltac:(unfold spin_max in B; lia)) in *. cbn. auto.
    + destruct b; cbn [negb]; left; cbn [fst snd rw_pcs rw_w rw_rc]; rewrite fupd_same; cbn [mid fst snd]; repeat split; auto; lia.
  - destruct M as (-> & B & W & C). left. cbn [fst snd rw_pcs rw_w rw_rc]. rewrite fupd_same. cbn [mid]. split; auto. cbn [rw_call]. rewrite B, C, W. cbn. auto.
  - destruct M as (-> & W & C). left. cbn [fst snd rw_pcs rw_w rw_rc]. rewrite fupd_same. split; auto. rewrite C. unfold rw_max.
    destruct (1073741824 <=? i32 (n + 1073741824)) eqn:B.
    + cbn [mid]. cbn [rw_call]. cbv zeta. rewrite i32_fold, B. cbn. auto.
    + cbn [mid fst snd]. repeat split; auto. lia.
  - destruct M as (-> & W & C & B). rewrite W. change spin_locked with 1. rewrite bit1. left. split; auto. cbn [mid rw_call].
    assert (B' : (1073741824 <=? i32 (n + 1073741824)) = false) by lia.
    destruct b; cbn [fst snd rw_pcs rw_w rw_rc]; rewrite fupd_same; cbn [mid rw_call]; cbv zeta; rewrite i32_fold, B'; cbn; auto.
  - destruct M as (-> & W & C & Hi & Hb). left. destruct (spin_max <? i) eqn:B; [|destruct (0 <=? rw_rc s) eqn:R]; cbn [fst snd rw_pcs rw_w rw_rc]; rewrite fupd_same; split; auto; cbn [mid fst snd].
    + cbn [rw_call]. assert (n <? 0 = true) as -> by (unfold spin_max in B; lia). cbn. auto.
    + repeat split; auto; lia.
    + repeat split; auto; lia.
  - destruct M as (-> & W & C & Hn). left. cbn [fst snd rw_pcs rw_w rw_rc]. rewrite fupd_same. split; auto. rewrite C.
    destruct (i32 (n + 1) =? 1) eqn:B.
    + cbn [mid fst snd]. repeat split; auto; lia.
    + cbn [mid rw_call]. assert (n <? 0 = false) as -> by lia. cbv zeta. rewrite i32_fold, B. cbn. auto.
  - destruct M as (-> & W & C & C1 & Hn & Hi & Hb). left. rewrite W, bit0. assert (L : n <? 0 = false) by lia. assert (B1 : (i32 (n + 1) =? 1) = true) by lia.
    destruct (spin_max <? i) eqn:B; [|destruct b; cbn [negb]]; cbn [fst snd rw_pcs rw_w rw_rc]; rewrite fupd_same; split; auto; cbn [mid fst snd].
    + cbn [rw_call]. rewrite L. cbv zeta. rewrite i32_fold, B1. rewrite (Hb ltac:(unfold spin_max in B; lia)) in *. cbn. auto.
    + repeat split; auto; lia.
    + cbn [rw_call]. rewrite L. cbv zeta. rewrite i32_fold, B1. cbn. auto.
  - destruct M as (-> & W & C). left. cbn [fst snd rw_pcs rw_w rw_rc]. rewrite fupd_same. split; auto. rewrite C. unfold rw_max.
    change (Z.opp 1073741824) with (-1073741824).
    assert (D : i32 (n - 1) = n - 1 \/ (n = -2147483648 /\ i32 (n - 1) = 2147483647)).
    { destruct (Z.eq_dec n (-2147483648)) as [->|N]; [right; auto|left; apply i32_small; lia]. }
    assert (Q : (i32 (n - 1) <? 0) && ((i32 (n - 1) + 1 =? 0) || (i32 (n - 1) + 1 =? -1073741824)) = ((n =? 0) || (n =? -1073741824))).
    { destruct D as [->|[-> ->]]; [lia|reflexivity]. }
    destruct (i32 (n - 1) <? 0) eqn:E1; cbn [andb] in Q.
    + rewrite Q. assert (i32 (n - 1) =? 0 = false) as -> by lia. destruct ((n =? 0) || (n =? -1073741824)) eqn:E; cbn [mid rw_call]; cbv zeta; rewrite i32_fold; cbn [fst snd]; rewrite E; auto.
    + cbn [mid rw_call]. cbv zeta. rewrite i32_fold. cbn [fst snd]. rewrite <- Q. auto.
  - destruct M.
  - destruct M as (-> & W & C & R). right. cbn [fst snd rw_pcs rw_w rw_rc]. rewrite fupd_same, R. auto.
Qed.

Definition seq_inv (s : rw_state) (h : list (ext rw_op sl_res)) : Prop :=
  exists l, let st := rw_after (false, 0) l in
    (h = rw_calls (false, 0) l /\ (forall u, rw_pcs s u = PIdle) /\ rw_w s = bit (fst st) /\ rw_rc s = snd st) \/
    (exists t op, h = rw_calls (false, 0) l ++ [Inv t op] /\ (forall u, u <> t -> rw_pcs s u = PIdle) /\ mid st op (rw_pcs s t) (rw_w s) (rw_rc s)).
Lemma running_calls l : forall s u, running (rw_calls s l) u = false.
Proof.
  induction l as [|[t op] l IH]; intros s u; [reflexivity|]. cbn [rw_calls]. unfold running. cbn [fold_left running_after].
  destruct (Nat.eqb t u); apply IH.
Qed.
Lemma one_by_one_app {Op Res} (a b : list (ext Op Res)) : one_by_one (a ++ b) -> one_by_one a.
Proof. intros H h1 t op h2 ->. apply (H h1 t op (h2 ++ b)). now rewrite <- app_assoc. Qed.
Lemma rw_others s t op u : u <> t -> rw_pcs (fst (rw_step s t op)) u = rw_pcs s u.
Proof.
  intros N. unfold rw_step. destruct (rw_pcs s t); repeat match goal with |- context [if ?c then _ else _] => destruct c end;
    cbn [fst rw_pcs]; apply fupd_other; auto.
Qed.
Lemma seq_run sched : let r := crun rw_step rw_init sched in one_by_one (snd r) -> seq_inv (fst r) (snd r).
Proof.
  induction sched as [|[t op] sched IH] using rev_ind; cbv zeta.
  { intros _. exists []. left. repeat split; auto. }
  rewrite crun_snoc. cbv zeta in IH. destruct (crun rw_step rw_init sched) as [s h] eqn:E. cbn [fst snd] in *.
  destruct (rw_step s t op) as [s' e] eqn:Es. cbn [fst snd]. intros O. specialize (IH (one_by_one_app _ _ O)).
  destruct IH as (l & [(Hh & Hi & W & C)|(u & o & Hh & Hi & M)]).
  - exists l. right. exists t, op. assert (Es' := Es). unfold rw_step in Es'. rewrite (Hi t) in Es'. injection Es' as <- <-.
    split; [congruence|]. cbn [rw_pcs rw_w rw_rc]. split; [intros v Hv; rewrite fupd_other by auto; apply Hi|]. rewrite fupd_same.
    destruct op; cbn [mid]; repeat split; auto; lia.
  - destruct (Nat.eq_dec t u) as [->|N].
    + pose proof (mid_step s u op _ o (after_range l (false, 0) ltac:(cbn; lia)) M) as Q. cbv zeta in Q. rewrite Es in Q. cbn [fst snd] in Q.
      assert (Ho : forall v, v <> u -> rw_pcs s' v = PIdle).
      { intros v Hv. replace s' with (fst (rw_step s u op)) by now rewrite Es. rewrite rw_others by auto. now apply Hi. }
      destruct Q as [(-> & M')|(-> & P' & W' & C')].
      * exists l. right. exists u, o. rewrite app_nil_r. auto.
      * exists (l ++ [(u, o)]). left. rewrite calls_snoc, after_snoc. repeat split; auto.
        -- rewrite Hh, <- app_assoc. reflexivity.
        -- intros v. destruct (Nat.eq_dec v u) as [->|]; auto.
    + exfalso. assert (e = [Inv t op]) as ->.
      { unfold rw_step in Es. rewrite (Hi t N) in Es. injection Es as _ <-. reflexivity. }
      specialize (O h t op [] eq_refl u). rewrite Hh, running_app, running_calls in O. cbn in O. rewrite Nat.eqb_refl in O. discriminate.
Qed.
Lemma rw_one_by_one sched : let h := snd (crun rw_step rw_init sched) in one_by_one h ->
  exists l, h = rw_calls (false, 0) l \/ exists t op, h = rw_calls (false, 0) l ++ [Inv t op].
Proof.
  cbv zeta. intros O. destruct (seq_run sched O) as (l & [(Hh & _)|(t & op & Hh & _)]); exists l; [left; auto|right; exists t, op; auto].
Qed.
Definition misuse_sched : list (nat * rw_op) := repeat (1%nat, WUnlock) 3 ++ repeat (2%nat, RLock) 4 ++ repeat (1%nat, WLock) 4.
Lemma misuse_damage : snd (crun rw_step rw_init misuse_sched) = 
  [Inv 1%nat WUnlock; Ret 1%nat WUnlock LPanic; Inv 2%nat RLock; Ret 2%nat RLock LOk; Inv 1%nat WLock; Ret 1%nat WLock LOk].
Proof. reflexivity. Qed.
