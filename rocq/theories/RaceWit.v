(** Races of concrete executions. *)
From Coq Require Import ZArith List Bool Arith Lia.
From Verif Require Import GoBase ConcBase LFDModel LFDSpec SpinModel RaceSpec RaceModel.
Import ListNotations.
Open Scope nat_scope.

Section Check.
Context {L : Type} (eqb : L -> L -> bool) (eqb_ok : forall a b, a = b -> eqb a b = true).
Definition edge (tr : trace L) (i j : nat) : bool :=
  (i <? j) &&
  match nth_error tr i, nth_error tr j with
  | Some (t, a), Some (u, b) => (t =? u) || (atomic a && atomic b && writes a && reads b && eqb (loc_of a) (loc_of b))
  | _, _ => false
  end.
(** No step of the order leads out of the indices in [P]. *)
Definition closed (tr : trace L) (P : nat -> bool) : bool :=
  forallb (fun i => negb (P i) || forallb (fun j => negb (edge tr i j) || P j) (seq 0 (length tr))) (seq 0 (length tr)).

Lemma closed_hb tr P : closed tr P = true -> forall i j, hb tr i j -> P i = true -> P j = true.
Proof.
  intros C. unfold closed in C. rewrite forallb_forall in C.
  assert (G : forall i j, edge tr i j = true -> P i = true -> P j = true).
  { intros i j He Hi. pose proof He as He'. unfold edge in He'. apply andb_prop in He'. destruct He' as [Hlt Hm]. apply Nat.ltb_lt in Hlt.
    assert (Hj : j < length tr).
    { apply nth_error_Some. intros E. rewrite E in Hm. destruct (nth_error tr i) as [[? ?]|]; discriminate. }
    specialize (C i). rewrite in_seq, Hi in C. specialize (C ltac:(lia)). cbn [negb orb] in C. rewrite forallb_forall in C.
    specialize (C j). rewrite in_seq, He in C. apply C. lia. }
  intros i j H. induction H as [i j t a b Hlt Ha Hb|i j (t & u & a & b & Hlt & Ha & Hb & Aa & Ab & Wa & Rb & El & _)|]; auto.
  - apply G. unfold edge. rewrite Ha, Hb, Nat.eqb_refl. apply Nat.ltb_lt in Hlt. now rewrite Hlt.
  - apply G. unfold edge. rewrite Ha, Hb, Aa, Ab, Wa, Rb, (eqb_ok _ _ El). apply Nat.ltb_lt in Hlt. rewrite Hlt. now rewrite orb_true_r.
Qed.

Lemma not_hb tr P i j : closed tr P = true -> P i = true -> P j = false -> ~ hb tr i j.
Proof. intros C Hi Hj H. apply (closed_hb tr P C) in H; congruence. Qed.
End Check.

Definition g_eqb (a b : g_loc) : bool :=
  match a, b with GWord, GWord | GReaders, GReaders => true | GData x, GData y => x =? y | _, _ => false end.
Lemma g_eqb_ok a b : a = b -> g_eqb a b = true.
Proof. intros ->. destruct b; cbn; auto. apply Nat.eqb_refl. Qed.
Definition fd_eqb (a b : fd_loc) : bool :=
  match a, b with DWord, DWord | DBusy, DBusy | DBuf, DBuf => true | DCell x, DCell y => (x =? y)%Z | _, _ => false end.
Lemma fd_eqb_ok a b : a = b -> fd_eqb a b = true.
Proof. intros ->. destruct b; cbn; auto. apply Z.eqb_refl. Qed.

(** Goroutine 0 writes, goroutine 1 reads. *)
Definition rw_bad : list (nat * w_op) :=
  [(1, WCall RLock); (1, WCall RLock); (0, WCall WLock); (0, WCall WLock); (0, WCall WLock); (0, WCall WLock);
   (1, WCall RLock); (1, WCall RLock); (0, WPut 7); (1, WGet 7)].
Lemma rw_races : race (trace_of w_step w_accs w_init rw_bad) 4 5.
Proof.
  exists 0, 1, (PWrite (GData 7)), (PRead (GData 7)). split; [lia|]. split; [reflexivity|]. split; [reflexivity|]. split; [discriminate|].
  split; [repeat split; auto|]. apply (not_hb g_eqb g_eqb_ok _ (fun i => i =? 4)); vm_compute; reflexivity.
Qed.

(** Two goroutines push. *)
Definition push_bad : list (nat * cd_op) :=
  [(0, DPush 5%Z); (1, DPush 6%Z); (0, DSize); (1, DSize); (0, DSize); (1, DSize)].
Lemma push_races : race (trace_of cd_step cd_accs (cd_init 4) push_bad) 7 9.
Proof.
  exists 0, 1, (PWrite (DCell 0)), (PWrite (DCell 0)). split; [lia|]. split; [vm_compute; reflexivity|]. split; [vm_compute; reflexivity|].
  split; [discriminate|]. split; [repeat split; auto|]. apply (not_hb fd_eqb fd_eqb_ok _ (fun i => i =? 7)); vm_compute; reflexivity.
Qed.

(** Goroutine 0 pushes, goroutines 1 and 2 pop. *)
Definition pop_bad : list (nat * cd_op) :=
  [(0, DPush 5%Z); (0, DSize); (0, DSize); (0, DSize); (0, DSize);
   (1, DPop); (1, DPop);
   (2, DPop); (2, DPop); (2, DPop); (2, DPop); (2, DPop);
   (0, DPush 6%Z); (0, DSize); (0, DSize); (0, DSize); (0, DSize);
   (2, DPop); (2, DPop); (2, DPop); (2, DPop); (2, DPop);
   (0, DPush 7%Z); (0, DSize); (0, DSize);
   (1, DPop)].
Lemma pop_races : race (trace_of cd_step cd_accs (cd_init 2) pop_bad) 29 31.
Proof.
  exists 0, 1, (PWrite (DCell 0)), (PRead (DCell 0)). split; [lia|]. split; [vm_compute; reflexivity|]. split; [vm_compute; reflexivity|].
  split; [discriminate|]. split; [repeat split; auto|]. apply (not_hb fd_eqb fd_eqb_ok _ (fun i => i =? 29)); vm_compute; reflexivity.
Qed.

Lemma push_witness : exists n sched i j, (0 < n < 2 ^ 31)%Z /\ (forall t op, In (t, op) sched -> op <> DPop) /\
  race (trace_of cd_step cd_accs (cd_init n) sched) i j.
Proof.
  exists 4%Z, push_bad, 7, 9. split; [lia|]. split; [|apply push_races].
  intros t op H. repeat (destruct H as [H|H]; [injection H as <- <-; discriminate|]). contradiction.
Qed.
Lemma pop_witness : exists n sched i j, (0 < n < 2 ^ 31)%Z /\ (forall t v, In (t, DPush v) sched -> t = 0) /\
  race (trace_of cd_step cd_accs (cd_init n) sched) i j.
Proof.
  exists 2%Z, pop_bad, 29, 31. split; [lia|]. split; [|apply pop_races].
  intros t v H. repeat (destruct H as [H|H]; [first [discriminate|injection H as <-; reflexivity]|]). contradiction.
Qed.
