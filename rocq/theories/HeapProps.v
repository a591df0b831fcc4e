(** Properties C02-C06 and C56: stl/heap.gp_int.go, stl/gp/heap.gp.go. *)
From Coq Require Import ZArith List Bool Lia Permutation Sorted.
From Verif Require Import GoBase CmpModel HeapModel HeapSpec HeapProofs HeapHistory.
Import ListNotations.
Open Scope Z_scope.

(** C02: for every history of public calls on an unlimited heap, every call
    returns what a bag of integers with priority-queue operations returns, no
    call panics, and the buffer is a permutation of the bag accepted by
    CheckHeap. *)
Theorem C02_heap_priority_queue : forall (maxTop : bool) (limitN : Z) (ops : list hop),
  limitN <= 0 ->
  exists h, run_ops heap_step (heap_init limitN maxTop) ops
            = Ok (h, snd (spec_ops (pq_step maxTop) [] ops)) /\
    Permutation (hb h) (fst (spec_ops (pq_step maxTop) [] ops)) /\
    check_heap (hcmp h) (hb h) = Ok true.
Proof. exact heap_history. Qed.
Print Assumptions C02_heap_priority_queue.

Example C02_ex :
  (h <- run_ops heap_step (heap_init 0 true)
     [HPush 3; HPush 9; HPush 5; HPush 9; HPop; HTop; HPop; HSize; HPop; HPop; HPop; HEmpty] ;;
   Ok (snd h))
  = Ok [OUnit; OUnit; OUnit; OUnit; OVal (Some 9); OVal (Some 9); OVal (Some 9); OInt 2;
        OVal (Some 5); OVal (Some 3); OVal None; OBool true].
Proof. vm_compute. reflexivity. Qed.

(** C03: after pushing any sequence into a limited heap, the buffer together
    with some rejected values is a permutation of everything pushed, the buffer
    has min(limitN, pushed) elements, and every kept value is at least as good
    as every rejected one ([below maxTop k r]: k <= r for a max-top heap). *)
Theorem C03_heap_keeps_best : forall (maxTop : bool) (limitN : Z) (vs : list Z),
  0 < limitN ->
  exists h, push_all (heap_init limitN maxTop) vs = Ok h /\
  exists rest, Permutation vs (hb h ++ rest) /\
    zlen (hb h) = Z.min limitN (zlen vs) /\
    forall k r, In k (hb h) -> In r rest -> below maxTop k r.
Proof. exact heap_topk. Qed.
Print Assumptions C03_heap_keeps_best.

Example C03_ex :
  (h <- push_all (heap_init 3 true) [8; 2; 7; 2; 9; 1; 5] ;; Ok (hb h)) = Ok [2; 2; 1].
Proof. vm_compute. reflexivity. Qed.

(** C03, mixed histories: whatever is pushed, popped and asked, every call on a
    limited heap returns what the limited bag returns; no call panics, the heap
    holds the values of that bag, at most limitN, and satisfies CheckHeap. *)
Theorem C03_heap_limit_respected : forall (maxTop : bool) (limitN : Z) (ops : list hop),
  0 < limitN ->
  exists h, run_ops heap_step (heap_init limitN maxTop) ops
            = Ok (h, snd (spec_ops (limited_step maxTop limitN) [] ops)) /\
    Permutation (hb h) (fst (spec_ops (limited_step maxTop limitN) [] ops)) /\
    heap_size h <= limitN /\ check_heap (hcmp h) (hb h) = Ok true.
Proof. exact heap_limited_history. Qed.
Print Assumptions C03_heap_limit_respected.

Example C03_ex2 :
  (h <- run_ops heap_step (heap_init 2 false) [HPush 1; HPush 5; HPush 3; HPop; HPush 0; HTop] ;;
   Ok (hb (fst h), snd h)) =
  Ok ([0; 5], [OUnit; OUnit; OUnit; OVal (Some 3); OUnit; OVal (Some 0)]).
Proof. vm_compute. reflexivity. Qed.

(** C04: SortHeap returns a permutation in ascending (maxTop) or descending
    (not maxTop) order, for every slice. *)
Theorem C04_sort_heap_sorts : forall (maxTop : bool) (b : list Z),
  exists b', sort_heap (hcmp (heap_init 0 maxTop)) b = Ok b' /\ Permutation b' b /\
    StronglySorted (fun x y => if maxTop then x <= y else y <= x) b'.
Proof. exact sort_heap_sorted. Qed.
Print Assumptions C04_sort_heap_sorts.

Example C04_ex :
  sort_heap (hcmp (heap_init 0 true)) [5; 1; 4; 1; 3; 9; 2] = Ok [1; 1; 2; 3; 4; 5; 9] /\
  sort_heap (hcmp (heap_init 0 false)) [5; 1; 4; 1; 3; 9; 2] = Ok [9; 5; 4; 3; 2; 1; 1].
Proof. vm_compute. auto. Qed.

(** C05: MakeHeap permutes every slice into heap order. *)
Theorem C05_make_heap_establishes : forall (maxTop : bool) (b : list Z),
  exists b', make_heap (hcmp (heap_init 0 maxTop)) b = Ok b' /\ Permutation b' b /\
    heap_ordered maxTop b'.
Proof. exact make_heap_ordered. Qed.
Print Assumptions C05_make_heap_establishes.

(** C05: CheckHeap never panics and decides heap order; a slice it accepts has
    an extreme element in front. *)
Theorem C05_check_heap_decides : forall (maxTop : bool) (b : list Z),
  exists r, check_heap (hcmp (heap_init 0 maxTop)) b = Ok r /\
    (r = true <-> heap_ordered maxTop b) /\
    (r = true -> forall x, In x b -> below maxTop x (nth 0 b 0)).
Proof. exact check_heap_iff. Qed.
Print Assumptions C05_check_heap_decides.

Example C05_ex :
  make_heap (hcmp (heap_init 0 true)) [1; 2; 3; 4; 5; 6] = Ok [6; 5; 3; 4; 2; 1] /\
  check_heap (hcmp (heap_init 0 true)) [6; 5; 3; 4; 2; 1] = Ok true /\
  check_heap (hcmp (heap_init 0 true)) [6; 5; 3; 4; 2; 7] = Ok false.
Proof. vm_compute. auto. Qed.

(** C06, exact behaviour: Reverse reverses every non-empty slice and panics on
    the empty one. *)
Theorem C06_reverse_partial : forall b : list Z,
  heap_reverse b = match b with [] => Panic | _ => Ok (rev b) end.
Proof. exact heap_reverse_spec. Qed.
Print Assumptions C06_reverse_partial.

(** C06 as stated is false: the empty slice makes Reverse panic
    (l = -1, l/2 = 0, so b[0] is read). *)
Theorem C06_reverse_refuted : exists b : list Z, heap_reverse b <> Ok (rev b).
Proof. exists []. vm_compute. discriminate. Qed.
Print Assumptions C06_reverse_refuted.

Example C06_ex : heap_reverse [1; 2; 3; 4; 5] = Ok [5; 4; 3; 2; 1].
Proof. vm_compute. reflexivity. Qed.

(** C56: in the template variant without GOGP_ImproveSTL, PopHeap is correct on
    heap-ordered slices. *)
Theorem C56_stl_variant_pop_partial : forall (maxTop : bool) (b : list Z),
  heap_ordered maxTop b -> b <> [] ->
  exists b', pop_heap_stl (hcmp (heap_init 0 maxTop)) b = Ok (b', Some (nth 0 b 0)) /\
    Permutation b (nth 0 b 0 :: b') /\ heap_ordered maxTop b' /\
    forall x, In x b -> below maxTop x (nth 0 b 0).
Proof. exact pop_heap_stl_ordered. Qed.
Print Assumptions C56_stl_variant_pop_partial.

(** C56 as stated is false: in that variant MakeHeap does not establish heap
    order, because adjustUp is not stopped at the root of the subtree. *)
Theorem C56_stl_variant_make_heap_refuted :
  exists b b', make_heap_stl (hcmp (heap_init 0 true)) b = Ok b' /\ ~ heap_ordered true b'.
Proof.
  exists [0; 5; 0; 4], [5; 0; 0; 4]. split; [vm_compute; reflexivity|].
  intros H. specialize (H 3%nat ltac:(cbn; lia)). vm_compute in H. now apply H.
Qed.
Print Assumptions C56_stl_variant_make_heap_refuted.

Example C56_ex : heap_ordered true [9; 5; 8; 1; 4] /\
  pop_heap_stl CMPLesser [9; 5; 8; 1; 4] = Ok ([8; 5; 4; 1], Some 9).
Proof.
  split; [|vm_compute; reflexivity].
  intros i Hi. cbn in Hi. do 5 (destruct i as [|i]; [cbn; lia|]). lia.
Qed.
