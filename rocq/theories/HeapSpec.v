(** What a user expects from a priority queue; independent of the heap model. *)
From Coq Require Import ZArith List Bool.
From Verif Require Import GoBase HeapModel.
Import ListNotations.
Open Scope Z_scope.

(** Calls of the public interface and what they return. *)
Inductive hop := HPush (v : Z) | HPop | HTop | HSize | HEmpty.
Inductive hobs := OUnit | OVal (o : option Z) | OInt (n : Z) | OBool (b : bool).

(** The value on top of a bag: largest for a max-top heap, smallest otherwise. *)
Definition best (maxTop : bool) (bag : list Z) : option Z :=
  match bag with
  | [] => None
  | x :: t => Some (fold_left (if maxTop then Z.max else Z.min) t x)
  end.

(** Remove one occurrence of [x]. *)
Fixpoint remove_one (x : Z) (bag : list Z) : list Z :=
  match bag with
  | [] => []
  | y :: t => if x =? y then t else y :: remove_one x t
  end.

(** A bag of integers with priority-queue operations. *)
Definition pq_step (maxTop : bool) (bag : list Z) (op : hop) : list Z * hobs :=
  match op with
  | HPush v => (v :: bag, OUnit)
  | HPop => match best maxTop bag with
            | Some m => (remove_one m bag, OVal (Some m))
            | None => (bag, OVal None)
            end
  | HTop => (bag, OVal (best maxTop bag))
  | HSize => (bag, OInt (zlen bag))
  | HEmpty => (bag, OBool (match bag with [] => true | _ => false end))
  end.

(** A bag that never holds more than [limit] values: a value pushed into a full
    bag replaces the one on top unless it is strictly nearer to the top. *)
Definition limited_step (maxTop : bool) (limit : Z) (bag : list Z) (op : hop) : list Z * hobs :=
  match op with
  | HPush v =>
      if zlen bag <? limit then (v :: bag, OUnit)
      else match best maxTop bag with
           | Some m => (if (if maxTop then v <=? m else m <=? v) then v :: remove_one m bag else bag, OUnit)
           | None => (bag, OUnit)
           end
  | _ => pq_step maxTop bag op
  end.

(** Calling the modelled IntHeap through its public methods. *)
Definition heap_step (h : heap) (op : hop) : outcome (heap * hobs) :=
  match op with
  | HPush v => h' <- heap_push h v ;; Ok (h', OUnit)
  | HPop => ' (h', o) <- heap_pop h ;; Ok (h', OVal o)
  | HTop => o <- heap_top h ;; Ok (h, OVal o)
  | HSize => Ok (h, OInt (heap_size h))
  | HEmpty => Ok (h, OBool (heap_empty h))
  end.

(** [a] stays at least as long in a heap as [b]: [b] is at least as near to the top. *)
Definition below (maxTop : bool) (a b : Z) : Prop :=
  if maxTop then a <= b else b <= a.

(** Heap order of an array: nobody beats the element at position (i-1)/2. *)
Definition heap_ordered (maxTop : bool) (b : list Z) : Prop :=
  forall i, (0 < i < length b)%nat ->
    below maxTop (nth i b 0) (nth (Nat.div (i - 1) 2) b 0).

(** Pushing a whole sequence of values, one after the other. *)
Definition push_all (h : heap) (vs : list Z) : outcome heap :=
  fold_left (fun o v => h <- o ;; heap_push h v) vs (Ok h).
