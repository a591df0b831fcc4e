(** Progress of the blocking calls of the ring buffer. *)
From Coq Require Import ZArith List Bool Lia.
From Verif Require Import GoBase ConcBase ProgSpec RingSpec RingLiveSpec RingLive RingModel.
Import ListNotations.
Open Scope Z_scope.

(** C203: MustPush waits only for room and MustPop only for values.  When the calls of P goroutines that have begun go
    on for 4P rounds and no further ones begin, all calls of MustPush have returned for which there is room, counting
    the places that calls of MustPop have asked for, all calls of MustPop for which there is a value, and all of Size. *)
Theorem C203_ring_progress : forall k P before rs, members P (before ++ concat rs) ->
  let s := fst (crun cr_step (cr_init k) before) in
  let h := snd (crun cr_step (cr_init k) (before ++ concat rs)) in
  Z.of_nat (length (invs h)) + 2 ^ Z.of_nat k < 2 ^ 64 ->
  fair_rounds nobody s rs -> invs (snd (crun cr_step s (concat rs))) = [] -> (4 * P <= length rs)%nat ->
  Z.of_nat (count_push h) = Z.min (Z.of_nat (began_push h)) (Z.of_nat (began_pop h) + 2 ^ Z.of_nat k) /\
  Z.of_nat (count_pop h) = Z.min (Z.of_nat (began_push h)) (Z.of_nat (began_pop h)) /\
  count_size h = began_size h.
Proof.
  intros k P before rs HM s h HB HF HI HL.
  destruct (ring_rounds P nobody k before rs HM HB ltac:(discriminate) HF HI HL) as (A & B & C).
  exact (conj A (conj B (C (fun _ => eq_refl)))).
Qed.
Print Assumptions C203_ring_progress.

(** A ring with one slot, three pushes and a pop: two pushes and the pop return, the third push waits for ever. *)
Example C203_ex :
  let before := [(0, CPush 7); (1, CPush 8); (2, CPop); (3, CPush 9)]%nat%Z in
  let rs := turns ([[0; 1; 2; 3]; [0; 1; 2; 3]; [0; 1; 2; 3]; [0; 1; 2; 3]; [1; 2; 3]; [1; 2; 3]; [1; 3]; [1; 3]; [1; 3]]%nat ++ repeat [3%nat] 7) in
  members 4 (before ++ concat rs) /\ fair_rounds nobody (fst (crun cr_step (cr_init 0) before)) rs /\
  invs (snd (crun cr_step (fst (crun cr_step (cr_init 0) before)) (concat rs))) = [] /\ length rs = 16%nat /\
  rets (snd (crun cr_step (cr_init 0) (before ++ concat rs))) =
    [(0%nat, CPush 7, ObsBool true); (2%nat, CPop, ObsVal 7 true); (1%nat, CPush 8, ObsBool true)].
Proof.
  split; [repeat constructor|]. split; [|vm_compute; auto].
  cbn [turns map app repeat]. unfold fair_rounds.
  repeat match goal with
  | |- _ /\ _ => split
  | |- forall t, nobody t = false -> _ => intros [|[|[|[|t]]]] _ H; [vm_compute; vm_compute in H; tauto ..|exfalso; apply H; vm_compute; reflexivity]
  | |- forall t, In t _ -> _ => reflexivity
  | |- True => exact Logic.I
  end.
Qed.

(** C204: a goroutine that stops does not hold up the others.  Full statement: as C203, but some goroutines do not act
    any more, and only the calls of the others count.  What holds: those that stop outside calls of MustPush and
    MustPop, also those in a call of Size.  Missing: those in the middle of MustPush or MustPop, see below. *)
Theorem C204_ring_stopped_partial : forall k P stopped before rs, members P (before ++ concat rs) ->
  let s := fst (crun cr_step (cr_init k) before) in
  let h := snd (crun cr_step (cr_init k) (before ++ concat rs)) in
  Z.of_nat (length (invs h)) + 2 ^ Z.of_nat k < 2 ^ 64 ->
  (forall t, stopped t = true -> outside (cr_pcs s t)) ->
  fair_rounds stopped s rs -> invs (snd (crun cr_step s (concat rs))) = [] -> (4 * P <= length rs)%nat ->
  Z.of_nat (count_push h) = Z.min (Z.of_nat (began_push h)) (Z.of_nat (began_pop h) + 2 ^ Z.of_nat k) /\
  Z.of_nat (count_pop h) = Z.min (Z.of_nat (began_push h)) (Z.of_nat (began_pop h)).
Proof.
  intros k P stopped before rs HM s h HB HO HF HI HL.
  destruct (ring_rounds P stopped k before rs HM HB HO HF HI HL) as (A & B & _). exact (conj A B).
Qed.
Print Assumptions C204_ring_stopped_partial.
(** A goroutine that stops after the first access of MustPush keeps the others from pushing into a ring with nothing
    in it, for ever. *)
Theorem C204_ring_stopped_refuted : forall k v w m, (1 <= k < 63)%nat ->
  let s := fst (crun cr_step (cr_init k) [(0%nat, CPush v)]) in
  rets (snd (crun cr_step s (repeat (1%nat, CPush w) m))) = [].
Proof. exact ring_stopped. Qed.
Print Assumptions C204_ring_stopped_refuted.

(** Goroutine 2 stops in the middle of Size; the push and the pop of the others return. *)
Example C204_ex :
  let before := [(2, CSize); (0, CPush 7); (1, CPop)]%nat%Z in
  let rs := turns (repeat [0; 1]%nat 4 ++ repeat [1%nat] 2 ++ repeat [] 6) in
  invs (snd (crun cr_step (fst (crun cr_step (cr_init 3) before)) (concat rs))) = [] /\ length rs = 12%nat /\
  rets (snd (crun cr_step (cr_init 3) (before ++ concat rs))) = [(0%nat, CPush 7, ObsBool true); (1%nat, CPop, ObsVal 7 true)].
Proof. vm_compute. auto. Qed.
