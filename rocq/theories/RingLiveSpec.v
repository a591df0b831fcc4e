(** Vocabulary for the progress of the blocking calls of the ring buffer. *)
From Coq Require Import ZArith List Bool.
From Verif Require Import GoBase ConcBase RingModel.
Import ListNotations.

(** Started calls in a history. *)
Definition began_push (h : list (ext cr_op rb_res)) : nat :=
  length (filter (fun e => match e with Inv _ (CPush _) => true | _ => false end) h).
Definition began_pop (h : list (ext cr_op rb_res)) : nat :=
  length (filter (fun e => match e with Inv _ CPop => true | _ => false end) h).
Definition began_size (h : list (ext cr_op rb_res)) : nat :=
  length (filter (fun e => match e with Inv _ CSize => true | _ => false end) h).
Definition count_size (h : list (ext cr_op rb_res)) : nat :=
  length (filter (fun e => match e with Ret _ CSize _ => true | _ => false end) h).

(** A schedule in rounds, in each of which every goroutine that is in a call at the beginning of the round acts, save
    those that have [stopped]. *)
Fixpoint fair_rounds (stopped : nat -> bool) (s : cr_state) (rs : list (list (nat * cr_op))) : Prop :=
  match rs with
  | [] => True
  | r :: rest => (forall t, stopped t = false -> cr_pcs s t <> CIdle -> In t (map fst r)) /\
                 (forall t, In t (map fst r) -> stopped t = false) /\
                 fair_rounds stopped (fst (crun cr_step s r)) rest
  end.
Definition nobody (t : nat) : bool := false.
(** Not in a call of MustPush or MustPop. *)
Definition outside (pc : cr_pc) : Prop :=
  match pc with CIdle | CSizeHead _ | CRet CSize _ => True | _ => False end.
(** Rounds of goroutines; what they would call next does not matter as long as they are in a call. *)
Definition turns (l : list (list nat)) : list (list (nat * cr_op)) := map (map (fun t => (t, CSize))) l.
