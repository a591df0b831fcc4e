(** Properties C119-C120 of the singly linked list with a tail pointer. *)
From Coq Require Import ZArith List Bool Arith.
From Verif Require Import GoBase GoLists ConcBase ListSpec SListModel SListSpec TailModel TailSpec TailProofs TailMore.
Import ListNotations.
Open Scope nat_scope.

(** What a client sees of a history that does not panic. *)
Definition tseen (ops : list top) : option (list sobs) :=
  match run_ops tstep tworld0 ops with Ok (_, os) => Some os | _ => None end.

(** C119 *)
Theorem C119_tail_partial ops :
  run_meets twant (fun a op => tpre a op /\ tregular a op) sabs0 ops ->
  exists w, run_ops tstep tworld0 ops = Ok (w, snd (spec_ops twant sabs0 ops)).
Proof. intros H. destruct (tgood_history ops H) as (w & E & _). exact (ex_intro _ w E). Qed.
Print Assumptions C119_tail_partial.
Definition C119_ops : list top :=
  [TBase SNew; TBase SNew; TPushBack 0 5; TPushBack 0 7; TBase (SPushFront 0 3); TBase (SWalk 0); TBack 0;
   TBase (SMoveFront 0 (Some 3)); TBack 0; TMoveBack 0 (Some 4); TBase (SWalk 0); TBase (SPopFront 0); TPushBack 1 9;
   TPushBack 1 8; TPushBackList 0 1; TBase (SValues 0); TBack 1; TPushBack 0 1; TBase (SReverse 0); TBack 0; TPushBack 0 2;
   TBase (SMoveAfter 0 (Some 8) (Some 6)); TBack 0; TBase (SValues 0); TBack 0].
Example C119_ex :
  run_meets twant (fun a op => tpre a op /\ tregular a op) sabs0 C119_ops /\
  skipn 5 (snd (spec_ops twant sabs0 C119_ops)) =
  [SoNodes [4; 2; 3]; SoNode (Some 3); SoNode (Some 3); SoNode (Some 2); SoNode (Some 4); SoNodes [3; 2; 4]; SoVal 7 true;
   SoNode (Some 5); SoNode (Some 6); SoNone; SoVals [5; 3; 9; 8]%Z; SoNode None; SoNode (Some 7); SoNone; SoNode (Some 2);
   SoNode (Some 8); SoNode (Some 8); SoNode (Some 2); SoVals [1; 8; 2; 9; 3; 5]%Z; SoNode (Some 2)].
Proof. split; [cbn; intuition; try discriminate|reflexivity]. Qed.
(** The last node is taken away and Back still answers it; what is pushed
    behind it afterwards is not in the list. *)
Theorem C119_tail_refuted : exists ops os,
  run_meets twant tpre sabs0 ops /\
  qseq (fst (spec_ops twant sabs0 ops)) 0 = [1; 3] /\
  tseen (ops ++ [TBack 0; TBase (SWalk 0)]) = Some (os ++ [SoNode (Some 3); SoNodes [1]]).
Proof.
  exists [TBase SNew; TPushBack 0 5; TPushBack 0 7; TPopBack 0; TPushBack 0 9],
         [SoList 0; SoNode (Some 1); SoNode (Some 2); SoVal 7 true; SoNode (Some 3)].
  split; [cbn; intuition; try discriminate|]. split; [reflexivity|]. vm_compute. reflexivity.
Qed.
Print Assumptions C119_tail_refuted.

(** C120: every history in which the calls that write through the tail pointer
    find it right; what the pointer is, call by call. *)
Theorem C120_tail_exact ops :
  run_meets texact tsafe tabs0 ops ->
  exists w, run_ops tstep tworld0 ops = Ok (w, snd (spec_ops texact tabs0 ops)).
Proof. intros H. destruct (trun_exact ops _ _ TRel0 H) as (w & E & _). exact (ex_intro _ w E). Qed.
Print Assumptions C120_tail_exact.
Definition C120_ops : list top :=
  [TBase SNew; TPushBack 0 5; TPushBack 0 7; TBase (SPushAfter 0 9 (Some 2)); TBack 0; TPopBack 0; TBack 0; TPopBack 0;
   TBase (SWalk 0); TBase (SReverse 0); TBack 0; TMoveBack 0 (Some 3); TBase (SInsertAfter 0 (Some 2) (Some 3)); TPushBack 0 4;
   TMoveBack 0 (Some 2); TBase (SWalk 0)].
Example C120_ex : run_meets texact tsafe tabs0 C120_ops /\
  skipn 3 (snd (spec_ops texact tabs0 C120_ops)) =
  [SoNode (Some 3); SoNode (Some 2); SoVal 7 true; SoNode (Some 2); SoVal 0 false; SoNodes [1; 3]; SoNone; SoNode (Some 1);
   SoNode None; SoNode (Some 2); SoNode (Some 4); SoNode (Some 2); SoNodes [3; 1; 4; 2]].
Proof. split; [unfold tsafe, ttrue; cbn; intuition; try discriminate|reflexivity]. Qed.
(** After PopBack of a nonempty list the next PushBack is lost, always. *)
Theorem C120_pop_back_loses ops k l n v :
  run_meets twant (fun a op => tpre a op /\ tregular a op) sabs0 ops ->
  let a := fst (spec_ops twant sabs0 ops) in
  qlive a k = true -> qseq a k = l ++ [n] ->
  exists w, run_ops tstep tworld0 (ops ++ [TPopBack k; TBack k; TPushBack k v; TBase (SWalk k)]) =
    Ok (w, snd (spec_ops twant sabs0 ops) ++ [SoVal (qval a n) true; SoNode (Some n); SoNode (Some (qfresh a)); SoNodes l]).
Proof. exact (pop_back_loses ops k l n v). Qed.
Print Assumptions C120_pop_back_loses.
(** A node put behind the last one by PushAfter is cut off by the next PushBack. *)
Theorem C120_push_after_loses ops k l n v v' :
  run_meets twant (fun a op => tpre a op /\ tregular a op) sabs0 ops ->
  let a := fst (spec_ops twant sabs0 ops) in
  qlive a k = true -> qseq a k = l ++ [n] ->
  exists w, run_ops tstep tworld0 (ops ++ [TBase (SPushAfter k v (Some n)); TBase (SWalk k); TBack k; TPushBack k v'; TBase (SWalk k)]) =
    Ok (w, snd (spec_ops twant sabs0 ops) ++
           [SoNode (Some (qfresh a)); SoNodes (l ++ [n; qfresh a]); SoNode (Some n);
            SoNode (Some (S (qfresh a))); SoNodes (l ++ [n; S (qfresh a)])]).
Proof. exact (push_after_loses ops k l n v v'). Qed.
Print Assumptions C120_push_after_loses.
Example C120_loses_ex :
  tseen [TBase SNew; TPushBack 0 5; TPushBack 0 7; TPopBack 0; TBack 0; TPushBack 0 9; TBase (SWalk 0)] =
    Some [SoList 0; SoNode (Some 1); SoNode (Some 2); SoVal 7 true; SoNode (Some 2); SoNode (Some 3); SoNodes [1]] /\
  tseen [TBase SNew; TPushBack 0 5; TBase (SPushAfter 0 7 (Some 1)); TBase (SWalk 0); TPushBack 0 9; TBase (SWalk 0)] =
    Some [SoList 0; SoNode (Some 1); SoNode (Some 2); SoNodes [1; 2]; SoNode (Some 3); SoNodes [1; 3]].
Proof. split; vm_compute; reflexivity. Qed.
