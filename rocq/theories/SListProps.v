(** Properties C21-C25 and C68-C70 of the singly linked list. *)
From Coq Require Import ZArith List Bool Arith Lia.
From Verif Require Import GoBase GoLists ConcBase ListSpec SListModel SListSpec SListProofs SListRefine SListCycle SListMore.
Import ListNotations.
Open Scope nat_scope.

(** C22 *)
Theorem C22_slist_history ops :
  run_meets swant (fun a op => spre a op /\ sregular a op) sabs0 ops ->
  exists w, run_ops sstep sworld0 ops = Ok (w, snd (spec_ops swant sabs0 ops)).
Proof. exact (slist_history ops). Qed.
Print Assumptions C22_slist_history.
Definition C22_ops : list sop :=
  [SNew; SNew; SPushFront 0 5; SPushFront 0 3; SPushFront 0 9; SPushAfter 0 7 (Some 3); SWalk 0;
   SMoveFront 0 (Some 2); SMoveAfter 0 (Some 4) (Some 5); SWalk 0; SReverse 0; SValues 0; SPushFront 1 1;
   SPushFrontList 0 1; SValues 0; SRemove 0 (Some 5); SInsertAfter 0 (Some 5) (Some 6); SClear 1; SPopFront 0;
   SWalk 0; STail 0 3; SFront 1; SMoveFront 0 (Some 77); SRemove 0 None].
Example C22_ex :
  run_meets swant (fun a op => spre a op /\ sregular a op) sabs0 C22_ops /\
  skipn 6 (snd (spec_ops swant sabs0 C22_ops)) =
  [SoNodes [4; 3; 5; 2]; SoNode (Some 2); SoNode (Some 4); SoNodes [2; 3; 5; 4]; SoNone; SoVals [9; 7; 3; 5]%Z;
   SoNode (Some 6); SoNone; SoVals [1; 9; 7; 3; 5]%Z; SoNode (Some 5); SoNode (Some 5); SoNone; SoVal 1 true;
   SoNodes [5; 4; 3; 2]; SoTail (Some 2) 2; SoNode None; SoNode None; SoNode None].
Proof. split; [cbn; intuition; try discriminate|reflexivity]. Qed.

(** C21, singly linked list: IsValidNode recognises the first node only. *)
Theorem C21_slist_valid_partial ops k n :
  run_meets sexact spre sabs0 ops ->
  let a := fst (spec_ops sexact sabs0 ops) in
  qlive a k = true ->
  exists w b, run_ops sstep sworld0 (ops ++ [SIsValid k (Some n)]) = Ok (w, snd (spec_ops sexact sabs0 ops) ++ [SoBool b]) /\
    (b = true -> In n (qseq a k)) /\ (In n (firstn 1 (qseq a k)) -> b = true).
Proof. exact (slist_valid ops k n). Qed.
Print Assumptions C21_slist_valid_partial.
Theorem C21_slist_valid_refuted : exists ops os,
  run_meets sexact spre sabs0 ops /\ In 1 (qseq (fst (spec_ops sexact sabs0 ops)) 0) /\
  sseen (ops ++ [SIsValid 0 (Some 1)]) = Some (os ++ [SoBool false]).
Proof.
  exists [SNew; SPushFront 0 5; SPushFront 0 3], [SoList 0; SoNode (Some 1); SoNode (Some 2)].
  split; [cbn; auto|]. split; [cbn; auto|]. vm_compute. reflexivity.
Qed.
Print Assumptions C21_slist_valid_refuted.
Example C21_slist_ex : sseen [SNew; SPushFront 0 5; SPushFront 0 3; SIsValid 0 (Some 2); SIsValid 0 (Some 9)] =
  Some [SoList 0; SoNode (Some 1); SoNode (Some 2); SoBool true; SoBool false].
Proof. vm_compute. reflexivity. Qed.

(** C23: an answer is right, but HasCycle need not answer. *)
Theorem C23_has_cycle_partial fuel h p b : s_has_cycle fuel h p = Ok b -> (b = true <-> cyclic h p).
Proof. exact (has_cycle_sound h p fuel b). Qed.
Print Assumptions C23_has_cycle_partial.
(** A list of two nodes makes it panic; the same list spliced into itself makes
    it run for ever. *)
Theorem C23_has_cycle_refuted : exists w w' os os',
  run_ops sstep sworld0 [SNew; SPushFront 0 5; SPushFront 0 3] = Ok (w, os) /\
  (forall fuel, s_has_cycle fuel (s_heap w) (s_front (s_heap w) 0) = Panic) /\
  run_ops sstep sworld0 [SNew; SPushFront 0 5; SPushFront 0 3; SPushFrontList 0 0] = Ok (w', os') /\
  (forall fuel, s_has_cycle fuel (s_heap w') (s_front (s_heap w') 0) = Diverge).
Proof. exact has_cycle_bad. Qed.
Print Assumptions C23_has_cycle_refuted.
(** Three nodes, 1 -> 2 -> 3 -> 1, entered at node 0. *)
Example C23_ex : s_has_cycle 5 (fun x => SNode 0 (Some (match x with 0 => 1 | 1 => 2 | 2 => 3 | _ => 1 end))) (Some 0) = Ok true /\
                 s_has_cycle 5 (fun x => SNode 0 (match x with 4 => None | _ => Some (S x) end)) (Some 0) = Ok false.
Proof. split; reflexivity. Qed.

(** C68: the verdict by the shape of the chain. *)
Theorem C68_has_cycle_exact h p :
  (forall n fuel, ends_after h p n -> n <= fuel -> s_has_cycle fuel h p = if n mod 4 <? 2 then Ok false else Panic) /\
  (forall m c fuel, cycles h p m c -> Nat.Odd c -> m * c + c <= fuel -> s_has_cycle fuel h p = Ok true) /\
  (forall m c fuel, cycles h p m c -> Nat.Even c -> s_has_cycle fuel h p = Diverge) /\
  (forall F, (forall x y, snext (h x) = Some y -> y < F) ->
     (exists n, n <= F + 1 /\ ends_after h p n) \/ (exists m c, m + c <= F + 1 /\ cycles h p m c)).
Proof.
  refine (conj (fun n fuel => has_cycle_ends h p n fuel) (conj (fun m c fuel => has_cycle_odd h p m c fuel)
    (conj (fun m c fuel => has_cycle_even h p m c fuel) (fun F => chain_dichotomy h p F)))).
Qed.
Print Assumptions C68_has_cycle_exact.
Example C68_ex : s_has_cycle 9 (fun x => SNode 0 (match x with 6 => None | _ => Some (S x) end)) (Some 0) = Panic /\
  s_has_cycle 9 (fun x => SNode 0 (match x with 4 => None | _ => Some (S x) end)) (Some 0) = Ok false /\
  s_has_cycle 9 (fun x => SNode 0 (Some (match x with 3 => 1 | _ => S x end))) (Some 0) = Ok true /\
  s_has_cycle 99 (fun x => SNode 0 (Some (match x with 4 => 1 | _ => S x end))) (Some 0) = Diverge.
Proof. repeat split. Qed.

(** C24: right for the empty list only, and Empty never. *)
Theorem C24_slist_size_partial ops k :
  run_meets sexact spre sabs0 ops ->
  let a := fst (spec_ops sexact sabs0 ops) in
  qlive a k = true -> qseq a k = [] ->
  exists w, run_ops sstep sworld0 (ops ++ [SLen k; SVisit k]) =
    Ok (w, snd (spec_ops sexact sabs0 ops) ++ [SoNat (length (qseq a k)); SoVals (map (qval a) (qseq a k))]).
Proof. exact (slist_size ops k). Qed.
Print Assumptions C24_slist_size_partial.
Theorem C24_slist_size_refuted : exists ops os,
  run_meets sexact spre sabs0 ops /\ length (qseq (fst (spec_ops sexact sabs0 ops)) 0) = 2 /\
  qseq (fst (spec_ops sexact sabs0 ops)) 1 = [] /\
  sseen (ops ++ [SLen 0; SEmpty 0; SVisit 0; SEmpty 1]) = Some (os ++ [SoNat 0; SoBool true; SoVals []; SoBool false]).
Proof.
  exists [SNew; SNew; SPushFront 0 5; SPushFront 0 3], [SoList 0; SoList 1; SoNode (Some 2); SoNode (Some 3)].
  split; [cbn; auto|]. split; [reflexivity|]. split; [reflexivity|]. vm_compute. reflexivity.
Qed.
Print Assumptions C24_slist_size_refuted.
Example C24_ex : sseen [SNew; SPushFront 0 5; SPopFront 0; SLen 0; SVisit 0; SWalk 0] =
  Some [SoList 0; SoNode (Some 1); SoVal 5 true; SoNat 0; SoVals []; SoNodes []].
Proof. vm_compute. reflexivity. Qed.

(** C25: Sort returns for at most one node. *)
Theorem C25_slist_sort_partial ops k :
  run_meets sexact spre sabs0 ops ->
  let a := fst (spec_ops sexact sabs0 ops) in
  qlive a k = true -> length (qseq a k) <= 1 ->
  exists w, run_ops sstep sworld0 (ops ++ [SSort k; SWalk k]) = Ok (w, snd (spec_ops sexact sabs0 ops) ++ [SoNone; SoNodes (qseq a k)]).
Proof. exact (slist_sort_short ops k). Qed.
Print Assumptions C25_slist_sort_partial.
Theorem C25_slist_sort_refuted : exists ops,
  run_meets sexact spre sabs0 ops /\ qlive (fst (spec_ops sexact sabs0 ops)) 0 = true /\
  qseq (fst (spec_ops sexact sabs0 ops)) 0 = [2; 1] /\ run_ops sstep sworld0 (ops ++ [SSort 0]) = Panic.
Proof. exact slist_sort_bad. Qed.
Print Assumptions C25_slist_sort_refuted.
Example C25_ex : sseen [SNew; SPushFront 0 5; SSort 0; SValues 0] = Some [SoList 0; SoNode (Some 1); SoNone; SoVals [5]%Z].
Proof. vm_compute. reflexivity. Qed.

(** C69: what every call does, for every history; Sort of two or more nodes panics. *)
Theorem C69_slist_exact ops :
  run_meets sexact spre sabs0 ops ->
  (exists w, run_ops sstep sworld0 ops = Ok (w, snd (spec_ops sexact sabs0 ops))) /\
  (forall k, let a := fst (spec_ops sexact sabs0 ops) in
     qlive a k = true -> 2 <= length (qseq a k) -> run_ops sstep sworld0 (ops ++ [SSort k]) = Panic).
Proof. exact (slist_exact ops). Qed.
Print Assumptions C69_slist_exact.
Definition C69_ops : list sop :=
  [SNew; SPushFront 0 5; SEmpty 0; SLen 0; SPushFront 0 3; SVisit 0; SIsValid 0 (Some 1); SIsValid 0 (Some 2); SClear 0; SEmpty 0].
Example C69_ex : run_meets sexact spre sabs0 C69_ops /\ snd (spec_ops sexact sabs0 C69_ops) =
  [SoList 0; SoNode (Some 1); SoBool true; SoNat 0; SoNode (Some 2); SoVals []; SoBool false; SoBool true; SoNone; SoBool false].
Proof. split; [cbn; auto 20|reflexivity]. Qed.

(** C70: splicing shares nodes; a list spliced into itself is a cycle. *)
Theorem C70_push_front_list ops k j :
  run_meets sexact spre sabs0 ops ->
  let a := fst (spec_ops sexact sabs0 ops) in
  qlive a k = true -> qlive a j = true -> qseq a j <> [] ->
  (k <> j -> exists w, run_ops sstep sworld0 (ops ++ [SPushFrontList k j; SWalk k; SWalk j]) =
     Ok (w, snd (spec_ops sexact sabs0 ops) ++ [SoNone; SoNodes (qseq a j ++ qseq a k); SoNodes (qseq a j ++ qseq a k)])) /\
  (k = j -> exists w, run_ops sstep sworld0 (ops ++ [SPushFrontList k j]) = Ok (w, snd (spec_ops sexact sabs0 ops) ++ [SoNone]) /\
     cycles (s_heap w) (s_front (s_heap w) k) 0 (length (qseq a k)) /\
     forall fuel, walk_loop fuel (s_heap w) (s_front (s_heap w) k) = Diverge).
Proof. exact (slist_splice ops k j). Qed.
Print Assumptions C70_push_front_list.
Example C70_ex : sseen [SNew; SNew; SPushFront 0 5; SPushFront 1 3; SPushFront 1 4; SPushFrontList 0 1; SValues 0; SValues 1] =
  Some [SoList 0; SoList 1; SoNode (Some 2); SoNode (Some 3); SoNode (Some 4); SoNone; SoVals [4; 3; 5]%Z; SoVals [4; 3; 5]%Z].
Proof. vm_compute. reflexivity. Qed.
