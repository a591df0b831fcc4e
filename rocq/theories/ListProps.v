(** Properties C16-C21, C66 and C67 of the doubly linked list. *)
From Coq Require Import ZArith List Bool Arith Lia Permutation Sorted.
From Verif Require Import GoBase GoLists ConcBase ListModel ListSpec ListRefine ListMore.
Import ListNotations.
Open Scope nat_scope.

(** What a client sees of a history that does not panic. *)
Definition seen (ops : list lop) : option (list lobs) :=
  match run_ops lstep lworld0 ops with Ok (_, os) => Some os | _ => None end.
(** A history used in the examples: list 0 holds 5 3 9 3 as nodes 0 1 2 3. *)
Definition demo : list lop := [LPushBack 0 5; LPushBack 0 3; LPushBack 0 9; LPushBack 0 3].

(** C16 *)
Theorem C16_list_history ops :
  run_meets lwant (fun a op => lpre a op /\ lregular a op) aworld0 ops ->
  exists w, run_ops lstep lworld0 ops = Ok (w, snd (spec_ops lwant aworld0 ops)).
Proof. intros H. destruct (run_want ops lworld0 aworld0 Rel0 H) as (w & E & _). exists w. exact E. Qed.
Print Assumptions C16_list_history.
Definition C16_ops : list lop :=
  [LPushBack 0 5; LPushFront 0 3; LPushBefore 0 7 0; LPushBack 1 1; LPushBack 1 2; LForward 0; LBackward 0;
   LRemove 0 0; LInsertBackList 0 1; LInsertBefore 0 0 3; LForward 0; LBackward 0; LMoveFront 0 4; LForward 0;
   LPopBack 0; LPopFront 0; LFront 0; LBack 0; LEmpty 1].
Example C16_ex :
  run_meets lwant (fun a op => lpre a op /\ lregular a op) aworld0 C16_ops /\
  skipn 5 (snd (spec_ops lwant aworld0 C16_ops)) =
  [OVals [3; 7; 5]%Z; OVals [5; 7; 3]%Z; ONode (Some 0); OBool true; ONode (Some 0);
   OVals [3; 7; 5; 1; 2]%Z; OVals [2; 1; 5; 7; 3]%Z; ONode (Some 4); OVals [2; 3; 7; 5; 1]%Z;
   OVal 1 true; OVal 2 true; ONode (Some 1); ONode (Some 0); OBool true].
Proof. split; [cbn; intuition; discriminate|reflexivity]. Qed.

(** C17 *)
Theorem C17_list_sort ops k :
  run_meets lexact lpre aworld0 ops ->
  let a := fst (spec_ops lexact aworld0 ops) in
  (zlen (aseq a k) < 2 ^ 64)%Z ->
  exists w l', run_ops lstep lworld0 (ops ++ [LSort k; LForward k; LBackward k]) =
      Ok (w, snd (spec_ops lexact aworld0 ops) ++
             [ONone; OVals (map (aval a) l'); OVals (map (aval a) (rev l'))]) /\
    Permutation l' (aseq a k) /\ Sorted Z.le (map (aval a) l') /\
    (forall z, filter (fun x => aval a x =? z)%Z l' = filter (fun x => aval a x =? z)%Z (aseq a k)).
Proof.
  intros H a Hs. destruct (look_after ops (LSort k) k H Hs) as (w & E). exists w, (stable_sort (aval a) (aseq a k)).
  split; [|split; [apply ListProofs.stable_sort_perm|split; [apply stable_sort_sorted|apply stable_sort_same]]].
  rewrite E. cbn [lexact lbase fst snd put_seq aseq aval]. now rewrite fupd_same.
Qed.
Print Assumptions C17_list_sort.
Example C17_ex : seen ((demo ++ [LSort 0; LForward 0; LBackward 0; LFront 0; LBack 0])) =
  Some ([ONode (Some 0); ONode (Some 1); ONode (Some 2); ONode (Some 3); ONone;
          OVals [3; 3; 5; 9]%Z; OVals [9; 5; 3; 3]%Z; ONode (Some 1); ONode (Some 2)]).
Proof. vm_compute. reflexivity. Qed.

(** C18: Reverse reverses lists of at most one node only. *)
Theorem C18_list_reverse_partial ops k :
  run_meets lexact lpre aworld0 ops ->
  let a := fst (spec_ops lexact aworld0 ops) in
  length (aseq a k) <= 1 ->
  exists w, run_ops lstep lworld0 (ops ++ [LReverse k; LForward k; LBackward k]) =
      Ok (w, snd (spec_ops lexact aworld0 ops) ++
             [ONone; OVals (map (aval a) (rev (aseq a k))); OVals (map (aval a) (aseq a k))]).
Proof.
  intros H a Hs. destruct (look_after ops (LReverse k) k H I) as (w & E). exists w.
  rewrite E. cbn [lexact lbase fst snd put_seq aseq aval]. rewrite fupd_same. fold a.
  destruct (aseq a k) as [|x [|y l]]; try reflexivity. cbn in Hs. lia.
Qed.
Print Assumptions C18_list_reverse_partial.
Theorem C18_list_reverse_refuted : exists ops os,
  run_meets lexact lpre aworld0 ops /\
  aseq (fst (spec_ops lexact aworld0 ops)) 0 = [0; 1; 2; 3] /\
  seen (ops ++ [LReverse 0; LForward 0]) = Some (os ++ [OVals [5]%Z]).
Proof.
  exists demo, [ONode (Some 0); ONode (Some 1); ONode (Some 2); ONode (Some 3); ONone].
  split; [cbn; auto|]. split; [reflexivity|]. vm_compute. reflexivity.
Qed.
Print Assumptions C18_list_reverse_refuted.
Example C18_ex : seen ([LPushBack 0 5; LReverse 0; LForward 0]) =
  Some ([ONode (Some 0); ONone; OVals [5]%Z]).
Proof. vm_compute. reflexivity. Qed.

(** C19: the moves, outside the listed positions. *)
Theorem C19_list_moves_partial ops k op :
  run_meets lexact lpre aworld0 ops ->
  let a := fst (spec_ops lexact aworld0 ops) in
  let l := aseq a k in
  forall l', match op with
             | LMoveFront k' n => k' = k /\ In n l /\ (hd_error l <> Some n \/ length l = 1) /\ l' = n :: without n l
             | LMoveBack k' n => k' = k /\ In n l /\ (hd_error l <> Some n \/ length l = 1) /\ l' = without n l ++ [n]
             | LMoveBefore k' n m => k' = k /\ In n l /\ In m l /\ n <> m /\ hd_error l <> Some m /\ l' = before n m (without n l)
             | LMoveAfter k' n m => k' = k /\ In n l /\ In m l /\ n <> m /\
                                    (hd_error l <> Some n \/ hd_error (rev l) <> Some m) /\ l' = after n m (without n l)
             | _ => False
             end ->
  exists w o, run_ops lstep lworld0 (ops ++ [op; LForward k; LBackward k]) =
      Ok (w, snd (spec_ops lexact aworld0 ops) ++ [o; OVals (map (aval a) l'); OVals (map (aval a) (rev l'))]).
Proof.
  intros H a l l' Hop.
  assert (Hpre : lpre a op) by (destruct op; try tauto; cbn; unfold l in Hop; intuition (subst; auto)).
  assert (Hnf : forall n (q : list nat), hd_error q <> Some n -> is_first n q = false).
  { intros n q K. apply not_true_is_false. intros K2. apply is_first_spec in K2. auto. }
  assert (Hreg : lregular a op).
  { destruct op; try tauto; cbn; unfold l, is_last in *.
    - destruct Hop as (-> & _ & [K|K] & _); [left; auto|right; lia].
    - destruct Hop as (-> & _ & [K|K] & _); [left; auto|right; lia].
    - destruct Hop as (-> & _ & _ & _ & K & _). left. auto.
    - destruct Hop as (-> & _ & _ & _ & [K|K] & _); [left; auto|right; left; auto]. }
  destruct (look_after ops op k H Hpre) as (w & E).
  destruct (run_exact0 ops H) as (w0 & _ & R0).
  pose proof (want_exact a op (Rel_nodup _ _ R0) Hpre Hreg) as Ew.
  exists w, (snd (lexact a op)). rewrite E. fold a. rewrite <- Ew.
  assert (Es : aseq (fst (lwant a op)) k = l' /\ aval (fst (lwant a op)) = aval a).
  { destruct op; try tauto; cbn [lwant fst put_seq aseq aval].
    - destruct Hop as (-> & _ & _ & ->). now rewrite fupd_same.
    - destruct Hop as (-> & _ & _ & ->). now rewrite fupd_same.
    - destruct Hop as (-> & _ & _ & K & _ & ->). rewrite fupd_same. destruct (Nat.eqb_spec n m); [contradiction|auto].
    - destruct Hop as (-> & _ & _ & K & _ & ->). rewrite fupd_same. destruct (Nat.eqb_spec n m); [contradiction|auto]. }
  destruct Es as (-> & ->). reflexivity.
Qed.
Print Assumptions C19_list_moves_partial.
(** Moving the first node to the back or to the front loses all others; moving
    in front of the first node puts the node at the end; moving the first node
    behind the last does nothing. *)
Theorem C19_list_moves_refuted : exists ops,
  run_meets lexact lpre aworld0 ops /\ aseq (fst (spec_ops lexact aworld0 ops)) 0 = [0; 1; 2; 3] /\
  (exists os, seen (ops ++ [LMoveBack 0 0; LForward 0]) = Some (os ++ [OVals [5]%Z])) /\
  (exists os, seen (ops ++ [LMoveFront 0 0; LForward 0]) = Some (os ++ [OVals [5]%Z])) /\
  (exists os, seen (ops ++ [LMoveBefore 0 2 0; LForward 0]) = Some (os ++ [OVals [5; 3; 3; 9]%Z])) /\
  (exists os, seen (ops ++ [LMoveAfter 0 0 3; LForward 0]) = Some (os ++ [OVals [5; 3; 9; 3]%Z])).
Proof.
  exists demo. split; [cbn; auto|]. split; [reflexivity|]. repeat split.
  - exists [ONode (Some 0); ONode (Some 1); ONode (Some 2); ONode (Some 3); ONode (Some 0)]. vm_compute. reflexivity.
  - exists [ONode (Some 0); ONode (Some 1); ONode (Some 2); ONode (Some 3); ONode (Some 0)]. vm_compute. reflexivity.
  - exists [ONode (Some 0); ONode (Some 1); ONode (Some 2); ONode (Some 3); ONode (Some 2)]. vm_compute. reflexivity.
  - exists [ONode (Some 0); ONode (Some 1); ONode (Some 2); ONode (Some 3); ONode None]. vm_compute. reflexivity.
Qed.
Print Assumptions C19_list_moves_refuted.
Example C19_ex : seen ((demo ++ [LMoveBefore 0 3 1; LForward 0; LMoveAfter 0 0 1; LForward 0; LMoveFront 0 2; LBackward 0])) =
  Some ([ONode (Some 0); ONode (Some 1); ONode (Some 2); ONode (Some 3);
          ONode (Some 3); OVals [5; 3; 3; 9]%Z; ONode (Some 0); OVals [3; 3; 5; 9]%Z; ONode (Some 2); OVals [5; 3; 3; 9]%Z]).
Proof. vm_compute. reflexivity. Qed.

(** What is seen of list 0 after a history and PushAfter(7, node [m]). *)
Definition after_push (ops : list lop) (m : nat) : option (outcome (list Z) * outcome (list Z) * option nat) :=
  match run_ops lstep lworld0 ops with
  | Ok (w, _) =>
      match push_after (lheap w) (lfresh w) 7 (Some m) with
      | Ok h => Some (traverse_next 9 h (visitor (lheads w 0)), traverse_prev 9 h (visitor (lheads w 0)), back h (lheads w 0))
      | _ => None
      end
  | _ => None
  end.

(** C20: the forward direction holds, the backward direction does not. *)
Theorem C20_push_after_partial ops k v m w os :
  run_meets lexact lpre aworld0 ops -> run_ops lstep lworld0 ops = Ok (w, os) ->
  let a := fst (spec_ops lexact aworld0 ops) in
  In m (aseq a k) ->
  exists h', push_after (lheap w) (lfresh w) v (Some m) = Ok h' /\
    forall fuel, length (aseq a k) < fuel ->
      traverse_next fuel h' (visitor (lheads w k)) =
        Ok (map (fun x => if x =? lfresh w then v else aval a x) (after (lfresh w) m (aseq a k))).
Proof.
  intros H E a Hm. destruct (run_exact0 ops H) as (w0 & E0 & R). rewrite E0 in E. injection E as <- _.
  destruct (push_after_ok w0 _ k v m R Hm) as (h' & E1 & E2 & _). exists h'. split; [exact E1|].
  intros fuel Hf. apply (E2 fuel Hf).
Qed.
Print Assumptions C20_push_after_partial.
Theorem C20_push_after_refuted : exists ops,
  run_meets lexact lpre aworld0 ops /\ aseq (fst (spec_ops lexact aworld0 ops)) 0 = [0; 1; 2; 3] /\
  after_push ops 3 = Some (Ok [5; 3; 9; 3; 7]%Z, Ok [3; 9; 3; 5]%Z, Some 3).
Proof. exists demo. split; [cbn; auto|]. split; [reflexivity|]. vm_compute. reflexivity. Qed.
Print Assumptions C20_push_after_refuted.
Example C20_ex : exists b r, after_push demo 1 = Some (Ok [5; 3; 7; 9; 3]%Z, r, b).
Proof. exists (Some 3), (Ok [3; 9; 3; 5]%Z). vm_compute. reflexivity. Qed.

(** C67: exactly what PushAfter leaves behind. *)
Theorem C67_push_after_exact ops k v m w os :
  run_meets lexact lpre aworld0 ops -> run_ops lstep lworld0 ops = Ok (w, os) ->
  let a := fst (spec_ops lexact aworld0 ops) in
  In m (aseq a k) ->
  exists h', push_after (lheap w) (lfresh w) v (Some m) = Ok h' /\
    (forall fuel, length (aseq a k) < fuel ->
      traverse_next fuel h' (visitor (lheads w k)) =
        Ok (map (fun x => if x =? lfresh w then v else aval a x) (after (lfresh w) m (aseq a k))) /\
      traverse_prev fuel h' (visitor (lheads w k)) = Ok (map (aval a) (rev (aseq a k)))) /\
    back h' (lheads w k) = hd_error (rev (aseq a k)).
Proof.
  intros H E a Hm. destruct (run_exact0 ops H) as (w0 & E0 & R). rewrite E0 in E. injection E as <- _.
  exact (push_after_ok w0 _ k v m R Hm).
Qed.
Print Assumptions C67_push_after_exact.
Example C67_ex : after_push demo 0 = Some (Ok [5; 7; 3; 9; 3]%Z, Ok [3; 9; 3; 5]%Z, Some 3).
Proof. vm_compute. reflexivity. Qed.

(** C21 (doubly linked list): IsValidNode recognises the first node only. *)
Theorem C21_list_valid_partial ops k n :
  run_meets lexact lpre aworld0 ops ->
  let a := fst (spec_ops lexact aworld0 ops) in
  exists w b, run_ops lstep lworld0 (ops ++ [LIsValid k n]) = Ok (w, snd (spec_ops lexact aworld0 ops) ++ [OBool b]) /\
    (b = true -> In n (aseq a k)) /\ (In n (firstn 1 (aseq a k)) -> b = true).
Proof.
  intros H a. destruct (run_exact0 ops H) as (w & E & R).
  destruct (run_exact [LIsValid k n] w _ R) as (w' & E' & _); [cbn; auto|].
  exists w', (is_first n (aseq a k)). rewrite (run_app _ _ _ _ E), E'. split; [reflexivity|].
  destruct (aseq a k) as [|x l]; cbn; [split; [discriminate|intros []]|]. rewrite Nat.eqb_eq. intuition.
Qed.
Print Assumptions C21_list_valid_partial.
Theorem C21_list_valid_refuted : exists ops os,
  run_meets lexact lpre aworld0 ops /\ In 2 (aseq (fst (spec_ops lexact aworld0 ops)) 0) /\
  seen (ops ++ [LIsValid 0 2]) = Some (os ++ [OBool false]).
Proof.
  exists demo, [ONode (Some 0); ONode (Some 1); ONode (Some 2); ONode (Some 3)].
  split; [cbn; auto|]. split; [cbn; auto|]. vm_compute. reflexivity.
Qed.
Print Assumptions C21_list_valid_refuted.
Example C21_ex : seen ((demo ++ [LIsValid 0 0; LIsValid 0 9])) =
  Some ([ONode (Some 0); ONode (Some 1); ONode (Some 2); ONode (Some 3); OBool true; OBool false]).
Proof. vm_compute. reflexivity. Qed.

(** C66: what every call does, for every history. *)
Theorem C66_list_exact ops :
  run_meets lexact lpre aworld0 ops ->
  exists w, run_ops lstep lworld0 ops = Ok (w, snd (spec_ops lexact aworld0 ops)).
Proof. intros H. destruct (run_exact0 ops H) as (w & E & _). exists w. exact E. Qed.
Print Assumptions C66_list_exact.
Definition C66_ops : list lop :=
  demo ++ [LPushBack 1 8; LPushBack 1 6; LInsertFrontList 0 1; LForward 0; LBackward 0; LMoveBefore 0 2 5; LForward 0;
           LMoveBack 0 5; LForward 0; LBackward 0; LSort 0; LIsValid 0 5; LForward 1].
Example C66_ex : run_meets lexact lpre aworld0 C66_ops /\
  skipn 6 (snd (spec_ops lexact aworld0 C66_ops)) =
  [OBool true; OVals [6; 5; 3; 9; 3; 8]%Z; OVals [8; 3; 9; 3; 5; 6]%Z; ONode (Some 2); OVals [6; 5; 3; 3; 8; 9]%Z;
   ONode (Some 5); OVals [6]%Z; OVals [6]%Z; ONone; OBool true; OVals []].
Proof. split; [cbn; intuition; try discriminate; lia|reflexivity]. Qed.
