(** The properties of the red-black tree template. *)
From Coq Require Import ZArith List Bool Lia Sorting.Sorted Permutation.
From Verif Require Import GoBase GoLists RbModel RbSpec RbProofs RbOps RbMore.
Import ListNotations.
Open Scope Z_scope.

(** C110: insertEqual makes a sorted list, equal keys in the order of insertion. *)
Theorem C110_sorted kvs : kvs <> [] -> exists s l,
  run_ops rb_step rb_new (map (fun e => BInsertEqual (fst e) (snd e)) kvs ++ [BSize; BWalk]) =
    Ok (s, map (fun e => RPtr (Some (fst (fst e)))) (numbered 1 kvs) ++ [RNum (Z.of_nat (length kvs)); RList l]) /\
  Permutation l (numbered 1 kvs) /\ StronglySorted before l.
Proof. exact (rb_sorted kvs). Qed.
Print Assumptions C110_sorted.
Example C110_ex :
  match run_ops rb_step rb_new [BInsertEqual 5 50; BInsertEqual 3 30; BInsertEqual 5 51; BInsertEqual 4 40; BWalk] with
  | Ok (_, os) => os = [RPtr (Some 1%nat); RPtr (Some 2%nat); RPtr (Some 3%nat); RPtr (Some 4%nat); RList [(2%nat, 3, 30); (4%nat, 4, 40); (1%nat, 5, 50); (3%nat, 5, 51)]]
  | _ => False
  end.
Proof. vm_compute. reflexivity. Qed.

(** C110, exactly: every history of calls returns what a list of entries kept in
    order returns, and panics where it does. *)
Theorem C110_exact ops :
  match run_ops rb_step rb_new ops, run_ops map_step (W 1 0 []) ops with
  | Ok (_, os), Ok (_, os') => os = os'
  | Panic, Panic => True
  | _, _ => False
  end.
Proof. exact (rb_exact ops). Qed.
Print Assumptions C110_exact.
Example C110_exact_ex :
  match run_ops rb_step rb_new [BInsertEqual 5 50; BInsertUnique 7 70; BInsertUnique 6 60; BSize; BWalk; BClear; BEmpty; BFind 5] with
  | Ok (_, os) => os = [RPtr (Some 1%nat); RPtr (Some 2%nat); RPtr (Some 3%nat); RNum 3; RList [(1%nat, 5, 50); (3%nat, 6, 60)]; RNone; RBool true; RPtr None]
  | _ => False
  end.
Proof. vm_compute. reflexivity. Qed.

(** C111: Find returns the entry with the key that was inserted first. *)
Theorem C111_find kvs k : exists s os p c, run_ops rb_step rb_new (map (fun e => BInsertEqual (fst e) (snd e)) kvs) = Ok (s, os) /\
  rb_find s k = Ok (p, c) /\ p = option_map (fun e => fst (fst e)) (find (fun e => e_key e =? k) (numbered 1 kvs)) /\ c <= Z.of_nat (length kvs) + 1.
Proof. exact (rb_find_first kvs k). Qed.
Print Assumptions C111_find.
Example C111_ex :
  match run_ops rb_step rb_new [BInsertEqual 5 50; BInsertEqual 3 30; BInsertEqual 5 51; BInsertEqual 3 31; BFind 5; BFind 3; BFind 4] with
  | Ok (_, os) => skipn 4 os = [RPtr (Some 1%nat); RPtr (Some 2%nat); RPtr None]
  | _ => False
  end.
Proof. vm_compute. reflexivity. Qed.

(** C112: Find needs a number of comparisons logarithmic in the size. What holds:
    never more than one for each entry and one more. *)
Theorem C112_cost_partial ops s os k : run_ops rb_step rb_new ops = Ok (s, os) ->
  exists w p c, run_ops map_step (W 1 0 []) ops = Ok (w, os) /\ rb_find s k = Ok (p, c) /\ c <= Z.of_nat (length (w_list w)) + 1.
Proof. exact (rb_cost ops s os k). Qed.
Print Assumptions C112_cost_partial.
(** Keys that come in ascending order make a chain. *)
Theorem C112_chain n : exists s os, run_ops rb_step rb_new (ascending (S n)) = Ok (s, os) /\ rb_size s = Z.of_nat (S n) /\
  rb_find s (Z.of_nat (S n)) = Ok (Some (S n), Z.of_nat (S n) + 1).
Proof. exact (rb_chain_cost n). Qed.
Print Assumptions C112_chain.
(** No factor makes the logarithm a bound. *)
Theorem C112_log_refuted c : 0 <= c -> exists ops s os k x cost, run_ops rb_step rb_new ops = Ok (s, os) /\ 0 < rb_size s /\
  rb_find s k = Ok (x, cost) /\ cost > c * (Z.log2 (rb_size s) + 1).
Proof. exact (rb_not_log c). Qed.
Print Assumptions C112_log_refuted.
Example C112_ex :
  match run_ops rb_step rb_new (ascending 20) with
  | Ok (s, _) => rb_find s 20 = Ok (Some 20%nat, 21) /\ rb_find s 1 = Ok (Some 1%nat, 2)
  | _ => False
  end.
Proof. vm_compute. auto. Qed.

(** C113: next and prev go to the neighbours in the order of the entries, and next
    of the last entry is End. *)
Theorem C113_neighbours_partial ops s os l : run_ops rb_step rb_new ops = Ok (s, os) -> rb_step s BWalk = Ok (s, RList l) ->
  (forall pre a b post, l = pre ++ a :: b :: post ->
     rb_nextp (S (rb_next s)) (rb_heap s) (Some (fst (fst a))) = Ok (Some (fst (fst b))) /\
     rb_prevp (S (rb_next s)) (rb_heap s) (Some (fst (fst b))) = Ok (Some (fst (fst a)))) /\
  (forall pre a, l = pre ++ [a] -> rb_nextp (S (rb_next s)) (rb_heap s) (Some (fst (fst a))) = Ok (Some 0%nat)).
Proof. exact (rb_neighbours ops s os l). Qed.
Print Assumptions C113_neighbours_partial.
(** prev of End is the last entry only if the first entry is the oldest. *)
Theorem C113_ends ops s os e l : run_ops rb_step rb_new ops = Ok (s, os) -> rb_step s BWalk = Ok (s, RList (e :: l)) ->
  exists p q, rb_prevp (S (rb_next s)) (rb_heap s) (Some (fst (fst e))) = Ok (Some p) /\
    rb_prevp (S (rb_next s)) (rb_heap s) (Some 0%nat) = Ok (Some q) /\
    ((forall x, In x l -> (fst (fst e) < fst (fst x))%nat) -> p = fst (fst e) /\ q = fst (fst (last l e))) /\
    ((exists x, In x l /\ (fst (fst x) < fst (fst e))%nat) -> p = 0%nat /\ q <> fst (fst (last l e))).
Proof. exact (rb_ends ops s os e l). Qed.
Print Assumptions C113_ends.
(** The full claim, that prev of End is the last entry, is false; on an empty tree
    it panics. *)
Theorem C113_end_refuted : rb_prevp 2 (rb_heap rb_new) (Some 0%nat) = Panic /\
  exists s os l e, run_ops rb_step rb_new [BInsertEqual 2 0; BInsertEqual 1 0] = Ok (s, os) /\ rb_step s BWalk = Ok (s, RList (l ++ [e])) /\
    rb_prevp (S (rb_next s)) (rb_heap s) (Some 0%nat) <> Ok (Some (fst (fst e))).
Proof.
  split; [reflexivity|]. eexists _, _, [(2%nat, 1, 0)], (1%nat, 2, 0). split; [reflexivity|]. split; [reflexivity|]. vm_compute. discriminate.
Qed.
Print Assumptions C113_end_refuted.
Example C113_ex :
  match run_ops rb_step rb_new [BInsertEqual 5 0; BInsertEqual 2 0; BInsertEqual 8 0; BInsertEqual 3 0] with
  | Ok (s, _) => rb_nextp 9 (rb_heap s) (Some 4%nat) = Ok (Some 1%nat) /\ rb_prevp 9 (rb_heap s) (Some 1%nat) = Ok (Some 4%nat) /\
                 rb_nextp 9 (rb_heap s) (Some 3%nat) = Ok (Some 0%nat) /\ rb_prevp 9 (rb_heap s) (Some 0%nat) = Ok (Some 4%nat)
  | _ => False
  end.
Proof. vm_compute. auto. Qed.

(** C114: insertUnique refuses keys that are there and adds others. What holds: it
    refuses; it adds if the entry with the next larger key is older than the one
    with the next smaller key, or one of them does not exist. Otherwise entries are
    lost. *)
Theorem C114_unique_partial ops s os l k v : run_ops rb_step rb_new ops = Ok (s, os) -> rb_step s BWalk = Ok (s, RList l) ->
  ((exists e, In e l /\ e_key e = k) -> rb_step s (BInsertUnique k v) = Ok (s, RPtr None)) /\
  ((forall e, In e l -> e_key e <> k) -> exists s' z, rb_step s (BInsertUnique k v) = Ok (s', RPtr (Some z)) /\ rb_size s' = rb_size s + 1 /\
     ((forall pre p q post, l = pre ++ p :: q :: post -> e_key p < k < e_key q -> (fst (fst q) < fst (fst p))%nat) ->
        rb_step s' BWalk = Ok (s', RList (put (z, k, v) l))) /\
     (forall pre p q post, l = pre ++ p :: q :: post -> e_key p < k < e_key q -> (fst (fst p) < fst (fst q))%nat ->
        rb_step s' BWalk = Ok (s', RList (pre ++ p :: (z, k, v) :: drop_younger (fst (fst p)) post)))).
Proof. exact (rb_unique ops s os l k v). Qed.
Print Assumptions C114_unique_partial.
(** The full claim is false: the first call on an empty tree panics, and 20 is lost
    when 15 comes after 10 and 20, though the size counts it. *)
Theorem C114_unique_refuted : rb_step rb_new (BInsertUnique 1 1) = Panic /\
  exists s os, run_ops rb_step rb_new [BInsertEqual 10 0; BInsertUnique 20 0; BInsertUnique 15 0; BFind 20; BSize] = Ok (s, os ++ [RPtr None; RNum 3]) /\
    rb_step s BWalk = Ok (s, RList [(1%nat, 10, 0); (3%nat, 15, 0)]).
Proof. split; [reflexivity|]. eexists _, [RPtr (Some 1%nat); RPtr (Some 2%nat); RPtr (Some 3%nat)]. split; reflexivity. Qed.
Print Assumptions C114_unique_refuted.
Example C114_ex :
  match run_ops rb_step rb_new [BInsertEqual 20 0; BInsertUnique 10 0; BInsertUnique 15 0; BInsertUnique 10 1; BInsertUnique 30 0; BWalk] with
  | Ok (_, os) => skipn 1 os = [RPtr (Some 2%nat); RPtr (Some 3%nat); RPtr None; RPtr (Some 4%nat); RList [(2%nat, 10, 0); (3%nat, 15, 0); (1%nat, 20, 0); (4%nat, 30, 0)]]
  | _ => False
  end.
Proof. vm_compute. reflexivity. Qed.

(** C115: Init makes an empty tree whatever was there, ordered as told. What holds:
    empty, and then as new, with smaller keys first. *)
Theorem C115_init_partial ops s os b kvs : run_ops rb_step rb_new ops = Ok (s, os) -> kvs <> [] -> exists s' l,
  run_ops rb_step s ([BInit b; BSize; BEmpty] ++ map (fun e => BInsertEqual (fst e) (snd e)) kvs ++ [BSize; BWalk]) =
    Ok (s', [RNone; RNum 0; RBool true] ++ map (fun e => RPtr (Some (fst (fst e)))) (numbered (rb_next s) kvs) ++ [RNum (Z.of_nat (length kvs)); RList l]) /\
  Permutation l (numbered (rb_next s) kvs) /\ StronglySorted before l.
Proof. exact (rb_again ops s os b kvs). Qed.
Print Assumptions C115_init_partial.
(** Init(true) does not put bigger keys first. *)
Theorem C115_big_first_refuted : exists s os e e', run_ops rb_step rb_new [BInit true; BInsertEqual 1 0; BInsertEqual 2 0; BWalk] = Ok (s, os ++ [RList [e; e']]) /\
  e_key e < e_key e'.
Proof. eexists _, [RNone; RPtr (Some 1%nat); RPtr (Some 2%nat)], (1%nat, 1, 0), (2%nat, 2, 0). split; reflexivity. Qed.
Print Assumptions C115_big_first_refuted.
Example C115_ex :
  match run_ops rb_step rb_new [BInsertEqual 5 0; BInit false; BSize; BFind 5; BInsertEqual 7 1; BWalk; BClear; BSize] with
  | Ok (_, os) => skipn 1 os = [RNone; RNum 0; RPtr None; RPtr (Some 2%nat); RList [(2%nat, 7, 1)]; RNone; RNum 0]
  | _ => False
  end.
Proof. vm_compute. reflexivity. Qed.

(** C116: Insert, Remove, Erase, LowerBound and UpperBound of the tree do what their
    names say. They do nothing: for any key. *)
Theorem C116_stubs_refuted k v : 
  (exists s os, run_ops rb_step rb_new [BInsert k v; BFind k; BSize] = Ok (s, os ++ [RPtr None; RNum 0])) /\
  (exists s os, run_ops rb_step rb_new [BInsertEqual k v; BRemove k v; BErase (Some 1%nat); BFind k; BSize] = Ok (s, os ++ [RPtr (Some 1%nat); RNum 1])) /\
  (exists s os, run_ops rb_step rb_new [BInsertEqual k v; BLower k v; BUpper (k - 1) v] = Ok (s, os ++ [RPtr None; RPtr None])).
Proof. exact (rb_stubs k v). Qed.
Print Assumptions C116_stubs_refuted.
Example C116_ex :
  match run_ops rb_step rb_new [BInsert 3 4; BFind 3] with Ok (_, os) => os = [RPtr None; RPtr None] | _ => False end.
Proof. vm_compute. reflexivity. Qed.

(** C117: rotations at the root cannot be noticed: the other calls return the same as
    without them. (insertUnique is left out, since what it loses depends on the shape.) *)
Theorem C117_rotations ops s os : run_ops rot_step rb_new ops = Ok (s, os) -> forallb (fun o => negb (is_unique o)) (calls ops) = true ->
  exists s', run_ops rb_step rb_new (calls ops) = Ok (s', returned ops os).
Proof. exact (rb_rotations ops s os). Qed.
Print Assumptions C117_rotations.
(** They move the child of the root up, and panic if there is none. *)
Theorem C117_rotate ops s os a lft : run_ops rot_step rb_new ops = Ok (s, os) -> forallb (fun o => negb (is_unique o)) (calls ops) = true ->
  rn_parent (rb_heap s 0%nat) = Some a ->
  match (if lft : bool then rn_right (rb_heap s a) else rn_left (rb_heap s a)) with
  | None => rot_step s (inr lft) = Panic
  | Some y => exists s', rot_step s (inr lft) = Ok (s', RNone) /\ rn_parent (rb_heap s' 0%nat) = Some y /\
      (if lft then rn_left (rb_heap s' y) else rn_right (rb_heap s' y)) = Some a
  end.
Proof. exact (rb_rotate ops s os a lft). Qed.
Print Assumptions C117_rotate.
Example C117_ex :
  match run_ops rot_step rb_new [inl (BInsertEqual 1 0); inl (BInsertEqual 3 0); inl (BInsertEqual 2 0); inr true; inl (BInsertEqual 0 0); inr false; inr true; inl BWalk] with
  | Ok (s, os) => rn_parent (rb_heap s 0%nat) = Some 2%nat /\ skipn 7 os = [RList [(4%nat, 0, 0); (1%nat, 1, 0); (3%nat, 2, 0); (2%nat, 3, 0)]]
  | _ => False
  end.
Proof. vm_compute. auto. Qed.

(** C118: the loop from Begin to End meets every entry once and ends. What holds: if
    the tree is not empty; the keys met are those that Find finds. *)
Theorem C118_loop_partial ops s os : run_ops rb_step rb_new ops = Ok (s, os) -> rb_step s BEmpty = Ok (s, RBool false) ->
  exists l, rb_step s BWalk = Ok (s, RList l) /\ forall k, exists p, rb_step s (BFind k) = Ok (s, RPtr p) /\
    match p with
    | None => forall e, In e l -> e_key e <> k
    | Some a => exists e, In e l /\ e_key e = k /\ fst (fst e) = a
    end.
Proof. exact (rb_loop ops s os). Qed.
Print Assumptions C118_loop_partial.
(** On an empty tree Begin is nil, not End, and the loop panics. *)
Theorem C118_empty_refuted : exists ops s os, run_ops rb_step rb_new ops = Ok (s, os ++ [RPtr None; RPtr (Some 0%nat)]) /\ rb_step s BWalk = Panic.
Proof. exists [BInsertEqual 1 1; BClear; BBegin; BEnd]. eexists _, [_; _]. split; reflexivity. Qed.
Print Assumptions C118_empty_refuted.
Example C118_ex :
  match run_ops rb_step rb_new [BInsertEqual 1 1; BEmpty; BBegin; BEnd; BWalk] with
  | Ok (_, os) => skipn 1 os = [RBool false; RPtr (Some 1%nat); RPtr (Some 0%nat); RList [(1%nat, 1, 1)]]
  | _ => False
  end.
Proof. vm_compute. reflexivity. Qed.
