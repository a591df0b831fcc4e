(** List editing, independent of slices and capacities. *)
From Coq Require Import ZArith List Bool.
From Verif Require Import GoBase SortSliceModel.
Import ListNotations.
Open Scope Z_scope.

Inductive sop (A : Type) := SPush (v : A) | SInsert (v : A) (idx : Z) | SRemove (idx : Z)
  | SPop | SGet (idx : Z) | SMustGet (idx : Z) | SLen | SSwap (i j : Z).
Inductive sobs (A : Type) := SInt (n : Z) | SVal (o : option A) | SMust (v : A) | SUnit.
Arguments SPush {A}. Arguments SInsert {A}. Arguments SRemove {A}. Arguments SPop {A}.
Arguments SGet {A}. Arguments SMustGet {A}. Arguments SLen {A}. Arguments SSwap {A}.
Arguments SInt {A}. Arguments SVal {A}. Arguments SMust {A}. Arguments SUnit {A}.

Definition in_range {A} (l : list A) (i : Z) : bool := (0 <=? i) && (i <? zlen l).
Definition at_pos {A} (l : list A) (i : Z) : option A :=
  if i <? 0 then None else nth_error l (Z.to_nat i).
Definition before {A} (l : list A) (i : Z) : list A := firstn (Z.to_nat i) l.
Definition from {A} (l : list A) (i : Z) : list A := skipn (Z.to_nat i) l.

(** What the documentation promises. *)
Definition edit_step {A} (l : list A) (op : sop A) : outcome (list A * sobs A) :=
  match op with
  | SPush v => Ok (l ++ [v], SInt (zlen l + 1))
  | SInsert v idx =>
      Ok (if in_range l idx then before l idx ++ [v] ++ from l idx else l ++ [v], SInt (zlen l + 1))
  | SRemove idx =>
      Ok (if in_range l idx then before l idx ++ from l (idx + 1) else l, SVal (at_pos l idx))
  | SPop => Ok (removelast l, SVal (hd_error (rev l)))
  | SGet idx => Ok (l, SVal (at_pos l idx))
  | SMustGet idx => match at_pos l idx with Some v => Ok (l, SMust v) | None => Panic end
  | SLen => Ok (l, SInt (zlen l))
  | SSwap i j => match at_pos l i, at_pos l j with
                 | Some a, Some b => Ok (upd (upd l (Z.to_nat i) b) (Z.to_nat j) a, SUnit)
                 | _, _ => Panic
                 end
  end.

(** What the code does: Insert inside the range replaces, and Pop of an empty
    slice panics. *)
Definition real_step {A} (l : list A) (op : sop A) : outcome (list A * sobs A) :=
  match op with
  | SInsert v idx =>
      if in_range l idx then Ok (before l idx ++ [v] ++ from l (idx + 1), SInt (zlen l))
      else Ok (l ++ [v], SInt (zlen l + 1))
  | SPop => match l with [] => Panic | _ => Ok (removelast l, SVal (hd_error (rev l))) end
  | _ => edit_step l op
  end.

(** Calling the modelled slice through its public methods. *)
Definition ss_step {A} (zero : A) (grow : nat -> nat) (s : gslice A) (op : sop A)
  : outcome (gslice A * sobs A) :=
  match op with
  | SPush v => let (s', n) := ss_push zero grow s v in Ok (s', SInt n)
  | SInsert v idx => ' (s', n) <- ss_insert zero grow s v idx ;; Ok (s', SInt n)
  | SRemove idx => ' (s', o) <- ss_remove zero grow s idx ;; Ok (s', SVal o)
  | SPop => ' (s', o) <- ss_pop s ;; Ok (s', SVal o)
  | SGet idx => o <- ss_get s idx ;; Ok (s, SVal o)
  | SMustGet idx => v <- ss_must_get s idx ;; Ok (s, SMust v)
  | SLen => Ok (s, SInt (ss_len s))
  | SSwap i j => s' <- ss_swap s i j ;; Ok (s', SUnit)
  end.

(** Calls covered by the documentation AND honoured by the code. *)
Definition honoured {A} (l : list A) (op : sop A) : bool :=
  match op with
  | SInsert _ idx => negb (in_range l idx)
  | SPop => match l with [] => false | _ => true end
  | _ => true
  end.

(** A Go slice never shows more than its capacity. *)
Definition gs_ok {A} (s : gslice A) : Prop := (glen s <= length (garr s))%nat.
(** The slice shows exactly the list. *)
Definition RS {A} (s : gslice A) (l : list A) : Prop := gs_ok s /\ visible s = l.

(** Every call of the history is one the code honours. *)
Fixpoint all_honoured {A} (l : list A) (ops : list (sop A)) : Prop :=
  match ops with
  | [] => True
  | op :: rest => honoured l op = true /\
      match real_step l op with Ok (l', _) => all_honoured l' rest | _ => True end
  end.
