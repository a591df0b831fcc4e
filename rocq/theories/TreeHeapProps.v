(** Properties C125-C130 of trees of nodes that change. *)
From Coq Require Import ZArith List Bool Arith Lia Permutation Sorted.
From Verif Require Import GoBase GoLists ConcBase SortSliceModel TreeModel TreeSpec TreeProofs TreeHeapModel TreeHeapSpec TreeHeapProofs TreeHeapMore TreeHeapVisit TreeHeapGrow TreeHeapGraft TreeHeapHang.
Import ListNotations.
Open Scope Z_scope.

(** A sort for the examples: by insertion. *)
Fixpoint put_sorted (e : nat * Z) (l : list (nat * Z)) : list (nat * Z) :=
  match l with [] => [e] | x :: t => if snd e <=? snd x then e :: l else x :: put_sorted e t end.
Definition insertion (l : list (nat * Z)) : list (nat * Z) := fold_right put_sorted [] l.
Example insertion_sorts : sorts insertion.
Proof.
  assert (P : forall e l, Permutation (put_sorted e l) (e :: l)).
  { intros e l. induction l as [|x l IH]; cbn; auto. destruct (snd e <=? snd x); auto. rewrite IH. apply perm_swap. }
  intros l. induction l as [|e l (IH1 & IH2)]; cbn; [split; constructor|]. fold (insertion l). split; [rewrite P; auto|].
  clear IH1. induction IH2 as [|x k S IH F]; cbn; [repeat constructor|]. destruct (Z.leb_spec (snd e) (snd x)).
  - constructor; [constructor; auto|]. constructor; auto. eapply Forall_impl; [|exact F]. intros y Hy. cbn in Hy. lia.
  - constructor; auto. rewrite Forall_forall in *. intros y Hy. apply (Permutation_in _ (P e k)) in Hy. destruct Hy as [<-|Hy]; [lia|auto].
Qed.
Definition double (n : nat) : nat := (n + n)%nat.
Definition hseen (ops : list hop) : option (list hobs) :=
  match run_ops (h_step insertion double) hworld0 ops with Ok (_, os) => Some os | _ => None end.

(** C125 *)
Definition adds_inside (w : hworld) (op : hop) : bool :=
  match op with HAddChild n _ idx | HAddChildNode n _ idx => inside (children w n) idx | _ => false end.
Theorem C125_add_child_partial srt grow w op w' o : sorts srt -> reached srt grow w -> adds_inside w op = false ->
  h_step srt grow w op = Ok (w', o) -> edits insert_at w op w' o.
Proof.
  intros Hs R A E. pose proof (proj2 (step_spec srt grow w op w' o Hs (reached_HI srt grow w Hs R) E)) as Ed.
  destruct op; cbn [edits adds_inside] in *; auto; unfold replace_at in Ed; unfold insert_at; rewrite A in *; exact Ed.
Qed.
Print Assumptions C125_add_child_partial.
Theorem C125_add_child_refuted : exists ops w w' o,
  run_ops (h_step insertion double) hworld0 ops = Ok (w, [HPtr (Some 0%nat); HPtr (Some 1%nat); HPtr (Some 2%nat)]) /\
  h_step insertion double w (HAddChild 0 9 0) = Ok (w', o) /\ children w 0 = [Some 1%nat; Some 2%nat] /\
  children w' 0 = [Some 3%nat; Some 2%nat] /\ ~ edits insert_at w (HAddChild 0 9 0) w' o.
Proof.
  exists [HNew; HAddChild 0 5 (-1); HAddChild 0 7 (-1)]. eexists _, _, _. split; [vm_compute; reflexivity|].
  split; [vm_compute; reflexivity|]. split; [vm_compute; reflexivity|]. split; [vm_compute; reflexivity|].
  intros (_ & _ & (_ & K & _) & _). vm_compute in K. discriminate.
Qed.
Print Assumptions C125_add_child_refuted.
Example C125_ex : hseen [HNew; HAddChild 0 5 (-1); HAddChild 0 7 5; HAddChild 1 8 0; HNum 0; HAll 0; HGetChild 0 1; HRemove 0 0; HAll 0; HRemove 0 3] =
  Some [HPtr (Some 0%nat); HPtr (Some 1%nat); HPtr (Some 2%nat); HPtr (Some 3%nat); HInt 2; HList [0; 5; 8; 7]; HChild (Some (Some 2%nat));
        HChild (Some (Some 1%nat)); HList [0; 7]; HChild None].
Proof. vm_compute. reflexivity. Qed.

(** C126: what the calls do, and exactly when they panic; they always return. *)
Theorem C126_edit_exact srt grow w op : sorts srt -> reached srt grow w ->
  (forall w' o, h_step srt grow w op = Ok (w', o) -> edits replace_at w op w' o) /\
  (is_edit op = true -> h_step srt grow w op <> Diverge /\ (h_step srt grow w op = Panic <-> edit_fails w op)).
Proof.
  intros Hs R. pose proof (reached_HI srt grow w Hs R) as I. split.
  - intros w' o E. exact (proj2 (step_spec srt grow w op w' o Hs I E)).
  - intros K. destruct (edit_outcome srt grow w op I K) as [(E & F)|((r & E) & F)]; rewrite E; (split; [discriminate|]); split; auto; [discriminate|contradiction].
Qed.
Print Assumptions C126_edit_exact.
Example C126_ex :
  hseen [HNew; HAddChild 0 5 (-1); HAddChild 0 7 (-1); HAddChild 0 9 0; HAddChild 0 1 9; HAll 0; HSort 0; HAll 0; HAddChildNode 2 1 0; HAll 0] =
    Some [HPtr (Some 0%nat); HPtr (Some 1%nat); HPtr (Some 2%nat); HPtr (Some 3%nat); HPtr (Some 4%nat); HList [0; 9; 7; 1]; HNone; HList [0; 1; 7; 9];
          HPtr (Some 1%nat); HList [0; 1; 7; 5; 9]] /\
  hseen [HNew; HAddChildNode 0 8 0; HSort 0] = Some [HPtr (Some 0%nat); HPtr None; HNone] /\
  hseen [HNew; HAddChildNode 0 8 0; HAddChild 0 8 1; HSort 0] = None /\ hseen [HNew; HNum 1] = None.
Proof. repeat split; vm_compute; reflexivity. Qed.

(** C127: what All returns, and when it does not. *)
Theorem C127_all_tree srt grow w a t l : sorts srt -> reached srt grow w -> (a < hw_next w)%nat -> below w a t -> Preorder (valued w t) l ->
  h_step srt grow w (HAll a) = Ok (w, HList l).
Proof. intros Hs R. exact (all_of_tree srt grow w a t l (reached_HI srt grow w Hs R)). Qed.
Print Assumptions C127_all_tree.
Theorem C127_all_outcome srt grow w a : sorts srt -> reached srt grow w -> (a < hw_next w)%nat ->
  match h_step srt grow w (HAll a) with
  | Ok (w', o) => w' = w /\ exists t l, below w a t /\ Preorder (valued w t) l /\ o = HList l
  | Panic => exists b, reach w a b /\ In None (children w b)
  | Diverge => exists b c, reach w a b /\ In (Some c) (children w b) /\ reach w c b
  end.
Proof. intros Hs R. exact (all_trichotomy srt grow w a (reached_HI srt grow w Hs R)). Qed.
Print Assumptions C127_all_outcome.
Theorem C127_all_cycle srt grow w a b c : reach w a b -> In (Some c) (children w b) -> reach w c b ->
  forall w' o, h_step srt grow w (HAll a) <> Ok (w', o).
Proof.
  intros R J R' w' o E. destruct (all_only_tree srt grow w a w' o E) as (t & _ & _ & B & _).
  exact (cycle_not_below w a b c t R J R' B).
Qed.
Print Assumptions C127_all_cycle.
(** The number of nodes is enough depth: if All fails to return in the model it
    needs more than any depth. *)
Theorem C127_all_hangs srt grow w a : sorts srt -> reached srt grow w ->
  h_step srt grow w (HAll a) = Diverge <-> forall depth, all_rec depth w (ptr_of w a) = Diverge.
Proof. intros Hs R. exact (all_diverges srt grow w a (reached_HI srt grow w Hs R)). Qed.
Print Assumptions C127_all_hangs.
(** Without AddChildNode every node is the root of a finite tree whose nodes are
    all different. *)
Theorem C127_all_own srt grow w a : sorts srt -> reached_by no_old srt grow w -> (a < hw_next w)%nat ->
  exists t l ns, below w a t /\ Preorder t ns /\ NoDup ns /\ Preorder (valued w t) l /\ h_step srt grow w (HAll a) = Ok (w, HList l).
Proof.
  intros Hs R Ha. destruct (no_old_TI srt grow w Hs R) as (I & T). destruct (TI_below w I T a) as (t & B).
  exists t, (all (valued w t)), (all t). repeat split; auto using all_preorder.
  - exact (TI_NoDup w T a t B).
  - exact (all_of_tree srt grow w a t _ I Ha B (all_preorder _)).
Qed.
Print Assumptions C127_all_own.
Example C127_ex :
  hseen [HNew; HAddChild 0 5 0; HAddChild 0 6 9; HAddChild 1 7 0; HAddChildNode 2 1 0; HAll 0; HAll 2] =
    Some [HPtr (Some 0%nat); HPtr (Some 1%nat); HPtr (Some 2%nat); HPtr (Some 3%nat); HPtr (Some 1%nat); HList [0; 5; 7; 6; 5; 7]; HList [6; 5; 7]] /\
  run_ops (h_step insertion double) hworld0 [HNew; HAddChild 0 5 0; HAddChildNode 1 0 0; HAll 0] = Diverge /\
  run_ops (h_step insertion double) hworld0 [HNew; HAddChildNode 0 9 0; HAddChildNode 0 0 1; HAll 0] = Panic.
Proof. repeat split; vm_compute; reflexivity. Qed.

(** C128: visiting a tree while it changes. *)
Theorem C128_next_partial srt grow w i : sorts srt -> reached srt grow w -> (i < hw_nvis w)%nat ->
  exists w' b, h_step srt grow w (HNext i) = Ok (w', HBool b).
Proof. intros Hs R. exact (next_total srt grow w i (reached_HI srt grow w Hs R)). Qed.
Print Assumptions C128_next_partial.
(** A history of calls on things that exist, none of which takes away a child or
    hangs up an old node. *)
Fixpoint sound (srt : list (nat * Z) -> list (nat * Z)) (grow : nat -> nat) (w : hworld) (ops : list hop) : Prop :=
  match ops with
  | [] => True
  | op :: ops => only_adds op = true /\ exists_for w op /\ forall w' o, h_step srt grow w op = Ok (w', o) -> sound srt grow w' ops
  end.
Theorem C128_visits_partial srt grow ops : sorts srt -> sound srt grow hworld0 ops -> exists w os, run_ops (h_step srt grow) hworld0 ops = Ok (w, os).
Proof.
  intros Hs. generalize AI0. generalize hworld0. induction ops as [|op ops IH]; intros w A S; cbn [run_ops]; [eauto|].
  destruct S as (K & X & S). destruct (adds_total srt grow w op Hs A K X) as (w1 & o & E & A1). rewrite E. cbn [bind].
  destruct (IH w1 A1 (S w1 o E)) as (w2 & os & ->). cbn. eauto.
Qed.
Print Assumptions C128_visits_partial.
(** Two children are removed and Prev panics; a node becomes its own child and Prev
    hangs. *)
Theorem C128_prev_refuted : exists ops ops',
  run_ops (h_step insertion double) hworld0 (ops ++ [HPrev 0]) = Panic /\
  run_ops (h_step insertion double) hworld0 (ops' ++ [HPrev 0]) = Diverge /\
  (exists os, hseen ops = Some (os ++ [HInt 7])) /\ (exists os, hseen ops' = Some (os ++ [HInt 7])).
Proof.
  exists [HNew; HAddChild 0 5 9; HAddChild 0 6 9; HAddChild 0 7 9; HVisitor 0; HNext 0; HNext 0; HNext 0; HNext 0; HRemove 0 0; HRemove 0 0; HGet 0],
         [HNew; HAddChild 0 5 9; HAddChild 0 7 9; HVisitor 0; HNext 0; HNext 0; HNext 0; HAddChildNode 1 1 0; HGet 0].
  split; [vm_compute; reflexivity|]. split; [vm_compute; reflexivity|]. split.
  - exists [HPtr (Some 0%nat); HPtr (Some 1%nat); HPtr (Some 2%nat); HPtr (Some 3%nat); HInt 0; HBool true; HBool true; HBool true; HBool true;
            HChild (Some (Some 1%nat)); HChild (Some (Some 2%nat))]. vm_compute. reflexivity.
  - exists [HPtr (Some 0%nat); HPtr (Some 1%nat); HPtr (Some 2%nat); HInt 0; HBool true; HBool true; HBool true; HPtr (Some 1%nat)]. vm_compute. reflexivity.
Qed.
Print Assumptions C128_prev_refuted.
(** Prev hangs only where the last children go on forever. *)
Theorem C128_prev_hangs srt grow w i : sorts srt -> reached srt grow w -> h_step srt grow w (HPrev i) = Diverge ->
  exists p : nat -> nat, forall n, get_at (children w (p n)) (zlen (children w (p n)) - 1) = Some (Some (p (S n))).
Proof. intros Hs R. exact (prev_hangs srt grow w i (reached_HI srt grow w Hs R)). Qed.
Print Assumptions C128_prev_hangs.
Definition C128_ops : list hop :=
  [HNew; HAddChild 0 5 9; HAddChild 0 6 9; HVisitor 0; HNext 0; HNext 0; HAddChild 1 3 0; HSort 0; HAddChild 0 1 9; HSort 0; HNext 0; HNext 0;
   HPrev 0; HGet 0; HPrev 0; HGet 0; HPrev 0; HGet 0].
Example C128_ex : sound insertion double hworld0 C128_ops /\
  option_map (skipn 10) (hseen C128_ops) = Some [HBool true; HBool true; HBool true; HInt 1; HBool true; HInt 0; HBool false; HInt 0].
Proof.
  split; [|vm_compute; reflexivity]. unfold C128_ops.
  repeat (split; [reflexivity|split; [vm_compute; try exact Logic.I; repeat constructor|]];
          intros ? ? E; vm_compute in E; injection E as <- <-). exact Logic.I.
Qed.

(** C129: as long as no node under the root is edited, whatever else happens,
    a visitor is a cursor over All, and its calls return. *)
Theorem C129_visitor_steady srt grow w r t l w1 o ops w2 os : sorts srt -> reached srt grow w -> (r < hw_next w)%nat ->
  below w r t -> Preorder (valued w t) l ->
  h_step srt grow w (HVisitor r) = Ok (w1, o) ->
  (forall op n ns, In op ops -> edited op = Some n -> Preorder t ns -> ~ In n ns) ->
  run_ops (h_step srt grow) w1 ops = Ok (w2, os) ->
  o = HInt (Z.of_nat (hw_nvis w)) /\ watch (hw_nvis w) l Fresh ops os /\
  forall op, In op [HNext (hw_nvis w); HPrev (hw_nvis w); HGet (hw_nvis w)] -> exists w3 o3, h_step srt grow w2 op = Ok (w3, o3).
Proof.
  intros Hs R Hr B P H Ed E. pose proof (reached_HI srt grow w Hs R) as I.
  destruct (stands_new srt grow w r t w1 o I Hr B H) as (Eo & S & Hh & Hn). split; auto.
  destruct (watch_history srt grow t (hw_nvis w) Hs ops w1 Fresh os w2 l S) as (W & c & S2); auto.
  - apply preorder_unique in P as ->. rewrite all_valued. apply map_ext. intros b. unfold value. now rewrite Hh.
  - intros op n J1 J2 J3. exact (Ed op n (all t) J1 J2 (all_preorder t) J3).
  - split; auto. intros op [<-|[<-|[<-|[]]]].
    + destruct (stands_move srt grow w2 t _ c VNext 0%nat S2) as (w3 & -> & _). eauto.
    + destruct (stands_move srt grow w2 t _ c VPrev 0%nat S2) as (w3 & -> & _). eauto.
    + cbn [h_step]. destruct (Nat.ltb_spec (hw_nvis w) (hw_nvis w2)); [eauto|]. pose proof (st_i _ _ _ _ S2). lia.
Qed.
Print Assumptions C129_visitor_steady.
Example C129_ex :
  option_map (skipn 6) (hseen [HNew; HAddChild 0 5 9; HAddChild 0 6 9; HAddChild 1 7 9; HNew; HVisitor 0;
    HNext 0; HVisitor 4; HNext 0; HAddChildNode 4 1 0; HGet 0; HNext 1; HNext 0; HRemove 4 0; HNext 0; HGet 0; HNext 1; HPrev 0; HGet 0; HNext 0; HNext 0; HPrev 0]) =
  Some [HBool true; HInt 1; HBool true; HPtr (Some 1%nat); HInt 5; HBool true; HBool true; HChild (Some (Some 1%nat)); HBool true; HInt 6; HBool false;
        HBool true; HInt 7; HBool true; HBool false; HBool false].
Proof. vm_compute. reflexivity. Qed.

(** C130: children appended during a forward visit, to nodes not met yet, to the
    current node or above it, are met: at any moment All is what was met and what is to come. *)
Theorem C130_growing_partial srt grow w0 r t ns w1 o seen w : sorts srt -> reached srt grow w0 -> (r < hw_next w0)%nat ->
  below w0 r t -> Preorder t ns -> NoDup ns ->
  h_step srt grow w0 (HVisitor r) = Ok (w1, o) -> growing srt grow (hw_nvis w0) w1 seen w ->
  exists rest, h_step srt grow w (HAll r) = Ok (w, HList (map (value w) (seen ++ rest))) /\ NoDup (seen ++ rest) /\
    exists w', h_step srt grow w (HNext (hw_nvis w0)) = Ok (w', HBool (match rest with [] => false | _ => true end)) /\
               hv_node (hw_vis w' (hw_nvis w0)) = hd_error rest.
Proof.
  intros Hs R Hr B P N H G. pose proof (reached_HI srt grow w0 Hs R) as I. apply preorder_unique in P as ->.
  destruct (stands_new srt grow w0 r t w1 o I Hr B H) as (_ & S & _). pose proof (proj1 (below_kids w0 _ _ B)) as Er.
  destruct (grown srt grow (hw_nvis w0) w1 r t Hs S (eq_sym Er) N seen w G) as (t' & c & S' & Et & N' & P').
  destruct (grown_next srt grow _ w t' c seen S' P') as (rest & E & Ea & K). rewrite Et in E. exists rest. split; auto. split; auto. congruence.
Qed.
Print Assumptions C130_growing_partial.
(** A child is removed while its brother is to come: the brother is skipped. *)
Theorem C130_removed_refuted : exists ops,
  hseen (ops ++ [HAll 0]) = Some [HPtr (Some 0%nat); HPtr (Some 1%nat); HPtr (Some 2%nat); HPtr (Some 3%nat); HInt 0; HBool true; HBool true; HInt 5;
     HChild (Some (Some 1%nat)); HList [0; 6; 7]] /\
  option_map (skipn 9) (hseen (ops ++ [HNext 0; HGet 0; HNext 0])) = Some [HBool true; HInt 7; HBool false].
Proof.
  exists [HNew; HAddChild 0 5 9; HAddChild 0 6 9; HAddChild 0 7 9; HVisitor 0; HNext 0; HNext 0; HGet 0; HRemove 0 0].
  split; vm_compute; reflexivity.
Qed.
Print Assumptions C130_removed_refuted.
Example C130_ex :
  option_map (skipn 4) (hseen [HNew; HAddChild 0 5 9; HAddChild 0 6 9; HVisitor 0; HNext 0; HAddChild 0 7 9; HNext 0; HAddChild 1 8 9; HAddChild 0 9 9;
     HAll 0; HNext 0; HGet 0; HNext 0; HGet 0; HNext 0; HGet 0; HNext 0; HGet 0; HNext 0]) =
  Some [HBool true; HPtr (Some 3%nat); HBool true; HPtr (Some 4%nat); HPtr (Some 5%nat); HList [0; 5; 8; 6; 7; 9]; HBool true; HInt 8; HBool true; HInt 6;
        HBool true; HInt 7; HBool true; HInt 9; HBool false].
Proof. vm_compute. reflexivity. Qed.
