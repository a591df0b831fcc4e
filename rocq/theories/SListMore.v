(** The theorems about histories of the singly linked list. *)
From Coq Require Import ZArith List Bool Arith Lia.
From Verif Require Import GoBase GoLists ConcBase ListSpec SListModel SListSpec SListProofs SListRefine SListCycle.
Import ListNotations.
Open Scope nat_scope.

(** What a client sees of a history that does not panic. *)
Definition sseen (ops : list sop) : option (list sobs) :=
  match run_ops sstep sworld0 ops with Ok (_, os) => Some os | _ => None end.

Lemma srun_want ops : forall w a, SRel w a -> run_meets swant (fun a op => spre a op /\ sregular a op) a ops ->
  exists w', run_ops sstep w ops = Ok (w', snd (spec_ops swant a ops)) /\ SRel w' (fst (spec_ops swant a ops)).
Proof.
  induction ops as [|op ops IH]; intros w a R H; cbn in *; [eauto|].
  destruct H as ((Hp & Hr) & H). destruct (sstep_ok w a op R Hp) as (w1 & E1 & R1).
  rewrite <- (swant_exact a op Hp Hr) in *. rewrite E1. cbn.
  destruct (swant a op) as [a1 o]. cbn in *. destruct (IH w1 a1 R1 H) as (w2 & -> & R2). cbn.
  destruct (spec_ops swant a1 ops). cbn in *. eauto.
Qed.
Lemma slist_history ops : run_meets swant (fun a op => spre a op /\ sregular a op) sabs0 ops ->
  exists w, run_ops sstep sworld0 ops = Ok (w, snd (spec_ops swant sabs0 ops)).
Proof. intros H. destruct (srun_want ops _ _ SRel0 H) as (w & E & _). eauto. Qed.

Lemma sthen ops ops2 : run_meets sexact spre sabs0 ops ->
  let a := fst (spec_ops sexact sabs0 ops) in
  run_meets sexact spre a ops2 ->
  exists w, run_ops sstep sworld0 (ops ++ ops2) = Ok (w, snd (spec_ops sexact sabs0 ops) ++ snd (spec_ops sexact a ops2)).
Proof.
  intros H a H2. destruct (srun_exact ops _ _ SRel0 H) as (w & E & R). destruct (srun_exact ops2 _ _ R H2) as (w2 & E2 & _).
  exists w2. rewrite run_ops_app, E. cbn. fold a. rewrite E2. reflexivity.
Qed.

Lemma slist_valid ops k n : run_meets sexact spre sabs0 ops ->
  let a := fst (spec_ops sexact sabs0 ops) in
  qlive a k = true ->
  exists w b, run_ops sstep sworld0 (ops ++ [SIsValid k (Some n)]) = Ok (w, snd (spec_ops sexact sabs0 ops) ++ [SoBool b]) /\
    (b = true -> In n (qseq a k)) /\ (In n (firstn 1 (qseq a k)) -> b = true).
Proof.
  intros H a L. destruct (sthen ops [SIsValid k (Some n)] H) as (w & E); [cbn; auto|].
  exists w, (is_first n (qseq a k)). split; [exact E|].
  destruct (qseq a k) as [|x l]; cbn; [split; [discriminate|intros []]|]. rewrite Nat.eqb_eq. intuition.
Qed.

Lemma slist_size ops k : run_meets sexact spre sabs0 ops ->
  let a := fst (spec_ops sexact sabs0 ops) in
  qlive a k = true -> qseq a k = [] ->
  exists w, run_ops sstep sworld0 (ops ++ [SLen k; SVisit k]) =
    Ok (w, snd (spec_ops sexact sabs0 ops) ++ [SoNat (length (qseq a k)); SoVals (map (qval a) (qseq a k))]).
Proof.
  intros H a L E. destruct (sthen ops [SLen k; SVisit k] H) as (w & Ew); [cbn; auto|].
  exists w. rewrite E. exact Ew.
Qed.

Lemma slist_sort_short ops k : run_meets sexact spre sabs0 ops ->
  let a := fst (spec_ops sexact sabs0 ops) in
  qlive a k = true -> length (qseq a k) <= 1 ->
  exists w, run_ops sstep sworld0 (ops ++ [SSort k; SWalk k]) = Ok (w, snd (spec_ops sexact sabs0 ops) ++ [SoNone; SoNodes (qseq a k)]).
Proof.
  intros H a L Hl. destruct (sthen ops [SSort k; SWalk k] H) as (w & Ew); [cbn; auto|].
  exists w. rewrite Ew. cbn. rewrite fupd_same. fold a. destruct (qseq a k) as [|x [|y t]]; cbn in *; auto. lia.
Qed.

Lemma slist_exact ops : run_meets sexact spre sabs0 ops ->
  (exists w, run_ops sstep sworld0 ops = Ok (w, snd (spec_ops sexact sabs0 ops))) /\
  (forall k, let a := fst (spec_ops sexact sabs0 ops) in
     qlive a k = true -> 2 <= length (qseq a k) -> run_ops sstep sworld0 (ops ++ [SSort k]) = Panic).
Proof.
  intros H. destruct (srun_exact ops _ _ SRel0 H) as (w & E & R). split; [eauto|].
  intros k a L Hl. rewrite run_ops_app, E. cbn [bind run_ops]. rewrite (sort_panics w a k R L Hl). reflexivity.
Qed.

Lemma slist_sort_bad : exists ops,
  run_meets sexact spre sabs0 ops /\ qlive (fst (spec_ops sexact sabs0 ops)) 0 = true /\
  qseq (fst (spec_ops sexact sabs0 ops)) 0 = [2; 1] /\ run_ops sstep sworld0 (ops ++ [SSort 0]) = Panic.
Proof.
  exists [SNew; SPushFront 0 5; SPushFront 0 3].
  assert (H : run_meets sexact spre sabs0 [SNew; SPushFront 0 5; SPushFront 0 3]) by (cbn; auto).
  split; [exact H|]. split; [reflexivity|]. split; [reflexivity|].
  apply (slist_exact _ H); [reflexivity|cbn; lia].
Qed.

Lemma slist_splice ops k j : run_meets sexact spre sabs0 ops ->
  let a := fst (spec_ops sexact sabs0 ops) in
  qlive a k = true -> qlive a j = true -> qseq a j <> [] ->
  (k <> j -> exists w, run_ops sstep sworld0 (ops ++ [SPushFrontList k j; SWalk k; SWalk j]) =
     Ok (w, snd (spec_ops sexact sabs0 ops) ++ [SoNone; SoNodes (qseq a j ++ qseq a k); SoNodes (qseq a j ++ qseq a k)])) /\
  (k = j -> exists w, run_ops sstep sworld0 (ops ++ [SPushFrontList k j]) = Ok (w, snd (spec_ops sexact sabs0 ops) ++ [SoNone]) /\
     cycles (s_heap w) (s_front (s_heap w) k) 0 (length (qseq a k)) /\
     forall fuel, walk_loop fuel (s_heap w) (s_front (s_heap w) k) = Diverge).
Proof.
  intros H a Lk Lj Ne. destruct (srun_exact ops _ _ SRel0 H) as (w & E & R). fold a in R. split.
  - intros N. destruct (splice_shared w a k j R Lk Lj N Ne) as (w1 & E1 & E2 & E3). exists w1.
    rewrite run_ops_app, E. cbn [bind run_ops]. rewrite E1. cbn [bind]. rewrite E2. cbn [bind]. rewrite E3. reflexivity.
  - intros <-. destruct (qseq a k) as [|x t] eqn:Eq; [congruence|].
    destruct (self_splice w a k x t R Lk Eq) as (w1 & E1 & C). exists w1.
    rewrite run_ops_app, E. cbn [bind run_ops]. rewrite E1. cbn [bind]. split; [reflexivity|]. split; [exact C|].
    intros fuel. apply walk_cyclic. intros n. exact (cyc_some _ _ _ _ C n).
Qed.

Lemma has_cycle_bad : exists w w' os os',
  run_ops sstep sworld0 [SNew; SPushFront 0 5; SPushFront 0 3] = Ok (w, os) /\
  (forall fuel, s_has_cycle fuel (s_heap w) (s_front (s_heap w) 0) = Panic) /\
  run_ops sstep sworld0 [SNew; SPushFront 0 5; SPushFront 0 3; SPushFrontList 0 0] = Ok (w', os') /\
  (forall fuel, s_has_cycle fuel (s_heap w') (s_front (s_heap w') 0) = Diverge).
Proof.
  set (ops := [SNew; SPushFront 0 5; SPushFront 0 3]).
  assert (H : run_meets sexact spre sabs0 ops) by (cbn; auto).
  destruct (srun_exact ops _ _ SRel0 H) as (w & E & R). set (a := fst (spec_ops sexact sabs0 ops)) in *.
  destruct (self_splice w a 0 2 [1] R eq_refl eq_refl) as (w' & E1 & C).
  pose proof (r_seg _ _ R 0 eq_refl) as Hs. change (qseq a 0) with [2; 1] in Hs.
  exists w, w', (snd (spec_ops sexact sabs0 ops)), (snd (spec_ops sexact sabs0 ops) ++ [SoNone]).
  split; [exact E|]. split; [|split].
  - unfold heads in Hs. cbn in Hs. destruct Hs as (P1 & P2 & P3). unfold s_front, s_has_cycle. rewrite P1.
    intros fuel. destruct fuel; cbn [has_cycle_loop]; rewrite P2, P3; reflexivity.
  - change ([SNew; SPushFront 0 5; SPushFront 0 3; SPushFrontList 0 0]) with (ops ++ [SPushFrontList 0 0]).
    rewrite run_ops_app, E. cbn [bind run_ops]. rewrite E1. reflexivity.
  - intros fuel. eapply has_cycle_even; [exact C|]. exists 1. reflexivity.
Qed.
