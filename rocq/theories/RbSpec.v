(** A sorted multimap, said without trees. *)
From Coq Require Import ZArith List Bool.
From Verif Require Import GoBase RbModel.
Import ListNotations.
Open Scope Z_scope.

(** An entry: the number of its node, its key and its value. *)
Definition e_key (e : nat * Z * Z) : Z := snd (fst e).
(** A new entry comes after those with the same key. *)
Fixpoint put (e : nat * Z * Z) (l : list (nat * Z * Z)) : list (nat * Z * Z) :=
  match l with
  | [] => [e]
  | x :: r => if e_key e <? e_key x then e :: l else x :: put e r
  end.
(** The entries at the front that came after the node [p]. *)
Fixpoint drop_younger (p : nat) (l : list (nat * Z * Z)) : list (nat * Z * Z) :=
  match l with
  | [] => []
  | x :: r => if Nat.ltb p (fst (fst x)) then drop_younger p r else l
  end.
(** insertUnique puts the new entry right after the entry with the next smaller
    key; the entries that follow and were inserted later than that one are lost. *)
Definition put_unique (e : nat * Z * Z) (l : list (nat * Z * Z)) : list (nat * Z * Z) :=
  let xs := filter (fun x => negb (e_key e <? e_key x)) l in
  let ys := filter (fun x => e_key e <? e_key x) l in
  match rev xs with
  | [] => e :: ys
  | p :: _ => xs ++ e :: drop_younger (fst (fst p)) ys
  end.
(** What is known of a tree: the number of the next node, the size and the entries
    in order. *)
Record world := W { w_next : nat; w_size : Z; w_list : list (nat * Z * Z) }.
(** The calls on a list of entries in order. The loop over the entries panics if
    there are none, since Begin is nil then and not End; so does insertUnique. *)
Definition map_step (s : world) (op : rb_op) : outcome (world * rb_obs) :=
  let (n, sz, l) := s in
  match op with
  | BInit _ | BClear => Ok (W n 0 [], RNone)
  | BInsertEqual k v => Ok (W (S n) (sz + 1) (put (n, k, v) l), RPtr (Some n))
  | BInsertUnique k v =>
      match l with
      | [] => Panic
      | _ => if existsb (fun e => e_key e =? k) l then Ok (s, RPtr None)
             else Ok (W (S n) (sz + 1) (put_unique (n, k, v) l), RPtr (Some n))
      end
  | BFind k => Ok (s, RPtr (option_map (fun e => fst (fst e)) (find (fun e => e_key e =? k) l)))
  | BSize => Ok (s, RNum sz)
  | BEmpty => Ok (s, RBool match l with [] => true | _ => false end)
  | BBegin => Ok (s, RPtr (option_map (fun e => fst (fst e)) (hd_error l)))
  | BEnd => Ok (s, RPtr (Some 0%nat))
  | BWalk => match l with [] => Panic | _ => Ok (s, RList l) end
  | BInsert _ _ | BRemove _ _ | BErase _ | BLower _ _ | BUpper _ _ => Ok (s, RPtr None)
  end.
(** Smaller key, or the same key and inserted before. *)
Definition before (a b : nat * Z * Z) : Prop := e_key a < e_key b \/ (e_key a = e_key b /\ (fst (fst a) < fst (fst b))%nat).
(** The calls of a history with rotations, and what they returned. *)
Fixpoint calls (ops : list (rb_op + bool)) : list rb_op :=
  match ops with [] => [] | inl o :: r => o :: calls r | inr _ :: r => calls r end.
Fixpoint returned (ops : list (rb_op + bool)) (os : list rb_obs) : list rb_obs :=
  match ops, os with
  | inl _ :: r, o :: q => o :: returned r q
  | inr _ :: r, _ :: q => returned r q
  | _, _ => []
  end.
(** The entries made by inserting pairs one by one, the first one with number [n]. *)
Fixpoint numbered (n : nat) (kvs : list (Z * Z)) : list (nat * Z * Z) :=
  match kvs with [] => [] | (k, v) :: r => (n, k, v) :: numbered (S n) r end.
(** Calls of insertUnique. *)
Definition is_unique (op : rb_op) : bool := match op with BInsertUnique _ _ => true | _ => false end.
