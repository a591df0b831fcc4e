(** What editing, listing and visiting a tree of nodes means. *)
From Coq Require Import ZArith List Bool Arith Permutation Sorted.
From Verif Require Import GoBase SortSliceModel TreeModel TreeSpec TreeHeapModel.
Import ListNotations.
Open Scope Z_scope.

(** The children and the value of a node, as GetChild and the visitor show them. *)
Definition children (w : hworld) (a : nat) : list (option nat) := visible (n_kids (hw_heap w a)).
Definition value (w : hworld) (a : nat) : Z := n_val (hw_heap w a).

(** States a client can be in. *)
Definition reached (srt : list (nat * Z) -> list (nat * Z)) (grow : nat -> nat) (w : hworld) : Prop :=
  exists ops os, run_ops (h_step srt grow) hworld0 ops = Ok (w, os).
(** What sort.Sort does: a sorted permutation. *)
Definition sorts (srt : list (nat * Z) -> list (nat * Z)) : Prop :=
  forall l, Permutation (srt l) l /\ StronglySorted (fun x y => snd x <= snd y) (srt l).

(** Whether an index is inside a list. *)
Definition inside {A} (l : list A) (idx : Z) : bool := (0 <=? idx) && (idx <? zlen l).
(** Inserting before position [idx], or at the end. *)
Definition insert_at {A} (l : list A) (v : A) (idx : Z) : list A :=
  if inside l idx then firstn (Z.to_nat idx) l ++ [v] ++ skipn (Z.to_nat idx) l else l ++ [v].
(** What the code does: it replaces position [idx]. *)
Definition replace_at {A} (l : list A) (v : A) (idx : Z) : list A :=
  if inside l idx then firstn (Z.to_nat idx) l ++ [v] ++ skipn (S (Z.to_nat idx)) l else l ++ [v].
Definition delete_at {A} (l : list A) (idx : Z) : list A :=
  if inside l idx then firstn (Z.to_nat idx) l ++ skipn (S (Z.to_nat idx)) l else l.
Definition get_at {A} (l : list A) (idx : Z) : option A := if inside l idx then nth_error l (Z.to_nat idx) else None.

(** Only the children of [n] change, to [l]; [k] nodes are new. *)
Definition only_kids (w w' : hworld) (n : nat) (l : list (option nat)) (k : nat) : Prop :=
  hw_next w' = (hw_next w + k)%nat /\ children w' n = l /\ value w' n = value w n /\
  forall b, b <> n -> (b < hw_next w)%nat -> children w' b = children w b /\ value w' b = value w b.

(** A call on the node [n] that is no nil pointer. [put] is where AddChild puts the
    new child. *)
Definition edits (put : list (option nat) -> option nat -> Z -> list (option nat)) (w : hworld) (op : hop) (w' : hworld) (o : hobs) : Prop :=
  match op with
  | HNew => hw_next w' = S (hw_next w) /\ o = HPtr (Some (hw_next w)) /\ children w' (hw_next w) = [] /\ value w' (hw_next w) = 0 /\
      forall b, (b < hw_next w)%nat -> children w' b = children w b /\ value w' b = value w b
  | HAddChild n v idx => (n < hw_next w)%nat /\ o = HPtr (Some (hw_next w)) /\
      only_kids w w' n (put (children w n) (Some (hw_next w)) idx) 1 /\
      children w' (hw_next w) = [] /\ value w' (hw_next w) = v
  | HAddChildNode n c idx => (n < hw_next w)%nat /\
      let p := if (c <? hw_next w)%nat then Some c else None in
      o = HPtr p /\ only_kids w w' n (put (children w n) p idx) 0
  | HRemove n idx => (n < hw_next w)%nat /\ o = HChild (get_at (children w n) idx) /\ only_kids w w' n (delete_at (children w n) idx) 0
  | HSort n => (n < hw_next w)%nat /\ o = HNone /\ exists l, only_kids w w' n l 0 /\ Permutation l (children w n) /\
      ((length l < 2)%nat \/ exists cs, l = map Some cs /\ StronglySorted (fun x y => value w x <= value w y) cs)
  | HGetChild n idx => (n < hw_next w)%nat /\ w' = w /\ o = HChild (get_at (children w n) idx)
  | HNum n => (n < hw_next w)%nat /\ w' = w /\ o = HInt (zlen (children w n))
  | _ => hw_next w' = hw_next w /\ forall b, children w' b = children w b /\ value w' b = value w b
  end.

(** [below w a t]: following the children from node [a] gives the finite tree [t] of
    addresses, without nil. *)
Inductive below (w : hworld) : nat -> tree nat -> Prop :=
| Below a ts : below_list w (children w a) ts -> below w a (Node a ts)
with below_list (w : hworld) : list (option nat) -> list (tree nat) -> Prop :=
| Below_nil : below_list w [] []
| Below_cons c cs t ts : below w c t -> below_list w cs ts -> below_list w (Some c :: cs) (t :: ts).
(** [b] can be reached from [a] by children. *)
Inductive reach (w : hworld) (a : nat) : nat -> Prop :=
| Reach_self : reach w a a
| Reach_child b c : reach w a b -> In (Some c) (children w b) -> reach w a c.
(** The values of the nodes of a tree. *)
Fixpoint valued (w : hworld) (t : tree nat) : tree Z :=
  match t with Node a ts => Node (value w a) (map (valued w) ts) end.
(** The node a call edits. *)
Definition edited (op : hop) : option nat :=
  match op with
  | HAddChild n _ _ | HAddChildNode n _ _ | HRemove n _ | HSort n => Some n
  | _ => None
  end.

(** What the calls of visitor [i] return while it is a cursor over [l]. *)
Fixpoint watch (i : nat) (l : list Z) (c : cursor) (ops : list hop) (os : list hobs) : Prop :=
  match ops, os with
  | [], [] => True
  | op :: ops, o :: os =>
      match op with
      | HNext j => if Nat.eqb j i then let (c', r) := cursor_step l 0 c VNext in o = HBool (fst r) /\ watch i l c' ops os
                   else watch i l c ops os
      | HPrev j => if Nat.eqb j i then let (c', r) := cursor_step l 0 c VPrev in o = HBool (fst r) /\ watch i l c' ops os
                   else watch i l c ops os
      | HGet j => (j = i -> o = HInt (match c with At k => nth k l 0 | _ => 0 end)) /\ watch i l c ops os
      | _ => watch i l c ops os
      end
  | _, _ => False
  end.

(** A forward visit with visitor [i] during which children are appended to nodes that
    were not met before, to the node the visitor is at, or to a node above it; [seen] are
    the nodes met so far. *)
Inductive growing (srt : list (nat * Z) -> list (nat * Z)) (grow : nat -> nat) (i : nat) (w0 : hworld) : list nat -> hworld -> Prop :=
| Grow_start : growing srt grow i w0 [] w0
| Grow_next seen w w' a : growing srt grow i w0 seen w -> h_step srt grow w (HNext i) = Ok (w', HBool true) ->
    hv_node (hw_vis w' i) = Some a -> growing srt grow i w0 (seen ++ [a]) w'
| Grow_add seen w w' a v idx o : growing srt grow i w0 seen w ->
    ~ In a seen \/ (exists c, hv_node (hw_vis w i) = Some c /\ reach w a c) -> inside (children w a) idx = false ->
    h_step srt grow w (HAddChild a v idx) = Ok (w', o) -> growing srt grow i w0 seen w'.

(** Calls that take no child away and hang up no old node. *)
Definition only_adds (op : hop) : bool := match op with HAddChildNode _ _ _ | HRemove _ _ => false | _ => true end.
(** The nodes and the visitors a call is made on exist. *)
Definition exists_for (w : hworld) (op : hop) : Prop :=
  match op with
  | HNew => True
  | HAddChild n _ _ | HAddChildNode n _ _ | HRemove n _ | HGetChild n _ | HNum n | HSort n | HAll n | HVisitor n => (n < hw_next w)%nat
  | HNext i | HPrev i | HGet i => (i < hw_nvis w)%nat
  end.

(** States reached by calls of some kind only. *)
Definition reached_by (kind : hop -> bool) (srt : list (nat * Z) -> list (nat * Z)) (grow : nat -> nat) (w : hworld) : Prop :=
  exists ops os, forallb kind ops = true /\ run_ops (h_step srt grow) hworld0 ops = Ok (w, os).
(** Calls that hang up no old node. *)
Definition no_old (op : hop) : bool := match op with HAddChildNode _ _ _ => false | _ => true end.

(** When an edit or a question about children panics. *)
Definition edit_fails (w : hworld) (op : hop) : Prop :=
  match op with
  | HAddChild n _ _ | HAddChildNode n _ _ | HRemove n _ | HGetChild n _ | HNum n => (hw_next w <= n)%nat
  | HSort n => (hw_next w <= n)%nat \/ (2 <= length (children w n))%nat /\ In None (children w n)
  | _ => False
  end.
(** The calls that [edits] is about. *)
Definition is_edit (op : hop) : bool :=
  match op with HAll _ | HNext _ | HPrev _ | HGet _ => false | _ => true end.
