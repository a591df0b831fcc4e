From Coq Require Import ZArith List Bool Arith Lia.
From Verif Require Import GoBase ConcBase SpinModel RaceSpec RaceModel.
Import ListNotations.
Open Scope nat_scope.

Ltac cases :=
  repeat match goal with
  | |- context [if ?c then _ else _] => destruct c eqn:?
  | |- context [match ?x with _ => _ end] => lazymatch x with context [match _ with _ => _ end] => fail | _ => destruct x eqn:? end
  end.
Ltac own_other := intros; cbn; unfold fupd; destruct (Nat.eqb_spec _ _); [contradiction|reflexivity].

Theorem g_honest : honest g_step g_accs g_at g_pos (fun _ => tt).
Proof.
  split; [|split].
  - intros s t op l. unfold g_step, g_accs, sl_accs, sl_step, g_at. destruct (sl_pcs (g_lock s) t) eqn:E.
    + right. destruct op as [[|]| |]; destruct (g_in s t); destruct l; reflexivity.
    + destruct l; [|right; cases; reflexivity|right; cases; reflexivity].
      destruct (_ <? _)%Z; [now right|]. destruct (_ =? _)%Z eqn:E0; [|now right]. left. exists (ARmw GWord). cbn. auto.
    + destruct l; [|right; cases; reflexivity|right; cases; reflexivity].
      destruct (_ =? _)%Z eqn:E0; [|now right]. left. exists (ARmw GWord). cbn. auto.
    + right. destruct op0, r, l; reflexivity.
  - intros s t op u Hu. unfold g_step, sl_step, g_pos.
    assert (N : forall T (f : nat -> T) x, fupd f t x u = f u) by (intros; unfold fupd; destruct (Nat.eqb_spec u t); [contradiction|reflexivity]).
    destruct (sl_pcs (g_lock s) t) as [|i| |o r]; [destruct op as [[|]| |]; destruct (g_in s t)|destruct (_ <? _)%Z; [|destruct (_ =? _)%Z]|destruct (_ =? _)%Z|destruct o, r];
      cbn; rewrite ?N; reflexivity.
  - intros s s' t op Ho _ Hr. unfold g_pos in Ho. assert (Hp : sl_pcs (g_lock s') t = sl_pcs (g_lock s) t) by congruence.
    assert (Hi : g_in s' t = g_in s t) by congruence. revert Hr. unfold g_step, g_accs, sl_accs, sl_step, g_pos, g_at. rewrite Hp, Hi. clear Ho.
    assert (N : forall T (f : nat -> T) x, fupd f t x t = x) by (intros; unfold fupd; now rewrite Nat.eqb_refl).
    destruct (sl_pcs (g_lock s) t) as [|i| |o r] eqn:E.
    + intros _. destruct op as [[|]| |]; destruct (g_in s t) eqn:Ei; cbn; rewrite ?N, ?Hp, ?Hi, ?E, ?Ei; repeat split; intros a Ha Hw; try contradiction;
        destruct Ha as [<-|[]]; reflexivity.
    + destruct (_ <? _)%Z eqn:Em.
      * intros _. cbn. rewrite !N, Hi. repeat split; intros a [].
      * intros Hr. assert (Hw : sl_word (g_lock s) = sl_word (g_lock s')).
        { destruct (_ =? _)%Z; [apply (Hr (ARmw GWord))|apply (Hr (ALoad GWord))]; cbn; auto. }
        rewrite <- Hw. destruct (_ =? _)%Z; cbn; rewrite !N, Hi; repeat split; intros a Ha Hwr; destruct Ha as [<-|[]]; cbn; auto.
    + intros Hr. assert (Hw : sl_word (g_lock s) = sl_word (g_lock s')).
      { destruct (_ =? _)%Z; [apply (Hr (ARmw GWord))|apply (Hr (ALoad GWord))]; cbn; auto. }
      rewrite <- Hw. destruct (_ =? _)%Z; cbn; rewrite !N, Hi; repeat split; intros a Ha Hwr; destruct Ha as [<-|[]]; cbn; auto.
    + intros _. destruct o, r; cbn; rewrite !N, ?Hi; repeat split; intros a [].
Qed.

Theorem w_honest : honest w_step w_accs w_at w_pos (fun _ => tt).
Proof.
  split; [|split].
  - intros s t op l. unfold w_step, w_accs, rw_accs, rw_step, w_at.
    destruct (rw_pcs (w_lock s) t) as [|i| | | |i| |i| | |o r] eqn:E;
      [right; destruct op as [[| | |]| |]; destruct (w_wr s t), (w_rd s t); destruct l; reflexivity| | | | | | | | | |right; destruct o, r, l; reflexivity];
      destruct l; try (now (right; cases; reflexivity)); cases; try (now right);
      (left; eexists; split; [left; reflexivity|split; reflexivity]).
  - intros s t op u Hu. unfold w_step, rw_step, w_pos.
    assert (N : forall T (f : nat -> T) x, fupd f t x u = f u) by (intros; unfold fupd; destruct (Nat.eqb_spec u t); [contradiction|reflexivity]).
    destruct (rw_pcs (w_lock s) t) as [|i| | | |i| |i| | |o r];
      [destruct op as [[| | |]| |]; destruct (w_wr s t), (w_rd s t)| | | | | | | | | |destruct o, r]; cases; cbn; rewrite ?N; reflexivity.
  - intros s s' t op Ho _ Hr. unfold w_pos in Ho. assert (Hp : rw_pcs (w_lock s') t = rw_pcs (w_lock s) t) by congruence.
    assert (Hi : w_wr s' t = w_wr s t) by congruence. assert (Hj : w_rd s' t = w_rd s t) by congruence.
    revert Hr. unfold w_step, w_accs, rw_accs, rw_step, w_pos, w_at. rewrite Hp, Hi, Hj. clear Ho.
    assert (N : forall T (f : nat -> T) x, fupd f t x t = x) by (intros; unfold fupd; now rewrite Nat.eqb_refl).
    destruct (rw_pcs (w_lock s) t) as [|i| | | |i| |i| | |o r] eqn:E.
    + intros _. destruct op as [[| | |]| |]; destruct (w_wr s t) eqn:Ei, (w_rd s t) eqn:Ej; cbn; rewrite ?N, ?Hp, ?Hi, ?Hj, ?E, ?Ei, ?Ej; repeat split; intros a Ha Hw; try contradiction;
        destruct Ha as [<-|[]]; reflexivity.
    + destruct (_ <? _)%Z eqn:Em.
      * intros _. cbn. rewrite !N, Hi, Hj. repeat split; intros a [].
      * intros Hr. assert (Hw : rw_w (w_lock s) = rw_w (w_lock s')).
        { destruct (_ =? _)%Z; [apply (Hr (ARmw GWord))|apply (Hr (ALoad GWord))]; cbn; auto. }
        rewrite <- Hw. destruct (_ =? _)%Z; cbn; rewrite !N, Hi, Hj; repeat split; intros a Ha Hwr; destruct Ha as [<-|[]]; cbn; auto.
    + intros Hr. assert (Hw : rw_rc (w_lock s) = rw_rc (w_lock s')) by (apply (Hr (ARmw GReaders)); cbn; auto).
      rewrite <- Hw. cbn. rewrite !N, Hi, Hj; repeat split; intros a Ha Hwr; destruct Ha as [<-|[]]; cbn; auto.
    + intros Hr. assert (Hw : rw_rc (w_lock s) = rw_rc (w_lock s')) by (apply (Hr (ARmw GReaders)); cbn; auto).
      rewrite <- Hw. cbn. rewrite !N, Hi, Hj; repeat split; intros a Ha Hwr; destruct Ha as [<-|[]]; cbn; auto.
    + intros Hr. assert (Hw : rw_w (w_lock s) = rw_w (w_lock s')).
      { destruct (_ =? _)%Z; [apply (Hr (ARmw GWord))|apply (Hr (ALoad GWord))]; cbn; auto. }
      rewrite <- Hw. destruct (_ =? _)%Z; cbn; rewrite !N, Hi, Hj; repeat split; intros a Ha Hwr; destruct Ha as [<-|[]]; cbn; auto.
    + destruct (_ <? _)%Z eqn:Em.
      * intros _. cbn. rewrite !N, Hi, Hj. repeat split; intros a [].
      * intros Hr. assert (Hw : rw_rc (w_lock s) = rw_rc (w_lock s')) by (apply (Hr (ALoad GReaders)); cbn; auto).
        rewrite <- Hw. destruct (_ <=? _)%Z; cbn; rewrite !N, Hi, Hj; repeat split; intros a Ha Hwr; destruct Ha as [<-|[]]; cbn; auto; discriminate.
    + intros Hr. assert (Hw : rw_rc (w_lock s) = rw_rc (w_lock s')) by (apply (Hr (ARmw GReaders)); cbn; auto).
      rewrite <- Hw. cbn. rewrite !N, Hi, Hj; repeat split; intros a Ha Hwr; destruct Ha as [<-|[]]; cbn; auto.
    + destruct (_ <? _)%Z eqn:Em.
      * intros _. cbn. rewrite !N, Hi, Hj. repeat split; intros a [].
      * intros Hr. assert (Hw : rw_w (w_lock s) = rw_w (w_lock s')).
        { destruct (_ =? _)%Z; [apply (Hr (ARmw GWord))|apply (Hr (ALoad GWord))]; cbn; auto. }
        rewrite <- Hw. destruct (_ =? _)%Z; cbn; rewrite !N, Hi, Hj; repeat split; intros a Ha Hwr; destruct Ha as [<-|[]]; cbn; auto.
    + intros Hr. assert (Hw : rw_rc (w_lock s) = rw_rc (w_lock s')) by (apply (Hr (ARmw GReaders)); cbn; auto).
      rewrite <- Hw. cbn. rewrite !N, Hi, Hj; repeat split; intros a Ha Hwr; destruct Ha as [<-|[]]; cbn; auto.
    + intros Hr. assert (Hw : rw_w (w_lock s) = rw_w (w_lock s')).
      { destruct (_ =? _)%Z; [apply (Hr (ARmw GWord))|apply (Hr (ALoad GWord))]; cbn; auto. }
      rewrite <- Hw. destruct (_ =? _)%Z; cbn; rewrite !N, Hi, Hj; repeat split; intros a Ha Hwr; destruct Ha as [<-|[]]; cbn; auto.
    + intros _. destruct o, r; cbn; rewrite !N, ?Hi, ?Hj; repeat split; intros a [].
Qed.
