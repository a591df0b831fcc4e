(** Package errors with the critical sections taken apart (errors/errors.go): every step touches the lock or the variables once, so
    that the steps of other goroutines may come between any two of them. *)
From Coq Require Import String.
From Coq Require Import ZArith List Bool Arith.
From Verif Require Import GoBase GoStrings MathModel ConcBase RegModel RaceSpec.
Import ListNotations.
Open Scope Z_scope.

(** What the name is looked up for (errors/errors.go:112-136): a call of Get, String or Error, or line 106 of ShowAll with the text so far. *)
Inductive ef_for := FCall (op : er_op) | FShow (buf : list Z) (id : Z).
(** Where a goroutine is (errors/errors.go): outside; before Lock (84), the comparison (88), append (89), the increment (90), reading
    the id (91), the deferred Unlock (85); before RLock (113), valid (115), the index (117), the deferred RUnlock (114); before
    the header (102) and the comparison (104) of ShowAll; before the return; after a panic. *)
Inductive ef_pc := FIdle | FLock (name : list Z) | FCheck (name : list Z) | FAppend (name : list Z) | FInc (name : list Z) | FId (name : list Z)
  | FUnlock (name : list Z) (r : er_res) | FRLock (k : ef_for) | FValid (k : ef_for) | FIndex (k : ef_for)
  | FRUnlock (k : ef_for) (name : list Z) (ok : bool) | FHead | FLoop (buf : list Z) (id : Z) | FRet (op : er_op) (r : er_res) | FDead.

(** errors/errors.go:53-58: who holds g_id2err_lock for writing, who for reading, who has ever released it from reading; g_id_cur_max; the
    array, length and capacity of g_id2err; the arrays; the next array that append allocates; the goroutines. *)
Record ef_state := EfState {
  ef_w : option nat; ef_rs : list nat; ef_seen : list nat;
  ef_cur : Z; ef_arr : nat; ef_len : nat; ef_cap : nat; ef_mem : nat -> nat -> list Z; ef_fresh : nat; ef_pcs : nat -> ef_pc }.

(** The id that is looked up (errors/errors.go:112, 106). *)
Definition for_id (k : ef_for) : Z :=
  match k with FCall (EGet id) | FCall (EString id) | FCall (EText id _) | FShow _ id => id | FCall _ => 0 end.
(** errors/errors.go:129-136 String, once the name is there. *)
Definition name_string (id : Z) (name : list Z) (ok : bool) : list Z :=
  if ok then bytes_of "error#" ++ fmt_d id ++ bytes_of " (" ++ name ++ bytes_of ")" else err_invalid id.
(** What the goroutine does when the name is there: errors/errors.go:121 (Get), 130-135 (String), errors/with_id_string.go:17-24 (Error), and
    errors/errors.go:104, 106 (ShowAll: next id). *)
Definition for_next (k : ef_for) (name : list Z) (ok : bool) : ef_pc :=
  match k with
  | FShow buf id => FLoop (buf ++ name_string id name ok) (wrap 32 (id + 1))
  | FCall (EText id msg) =>
      FRet (EText id msg) (EStr (if ok then bytes_of "error#" ++ fmt_d id ++ bytes_of " (" ++ name ++ bytes_of "): " ++ msg else err_invalid id))
  | FCall (EString id) => FRet (EString id) (EStr (name_string id name ok))
  | FCall op => FRet op (EName name ok)
  end.

(** Goroutine [t] goes on at [pc] (errors/errors.go:83-140). *)
Definition ef_go (s : ef_state) (t : nat) (pc : ef_pc) : ef_state :=
  EfState (ef_w s) (ef_rs s) (ef_seen s) (ef_cur s) (ef_arr s) (ef_len s) (ef_cap s) (ef_mem s) (ef_fresh s) (fupd (ef_pcs s) t pc).
(** sync.RWMutex (called at errors/errors.go:84-85, 113-114): Lock waits until nobody holds the lock, RLock until nobody holds it for writing.
    Simplified: a goroutine that waits for Lock does not hold up new readers, so that the model has more executions than the code. *)
Definition ef_set_lock (s : ef_state) (w : option nat) (rs seen : list nat) : ef_state :=
  EfState w rs seen (ef_cur s) (ef_arr s) (ef_len s) (ef_cap s) (ef_mem s) (ef_fresh s) (ef_pcs s).
(** errors/errors.go:90. *)
Definition ef_set_cur (s : ef_state) (c : Z) : ef_state :=
  EfState (ef_w s) (ef_rs s) (ef_seen s) c (ef_arr s) (ef_len s) (ef_cap s) (ef_mem s) (ef_fresh s) (ef_pcs s).
(** errors/errors.go:89: append writes behind the last element if there is room, otherwise into a new array of a capacity that the
    runtime chooses ([grow], at least one more). *)
Definition ef_append (grow : nat -> nat) (s : ef_state) (name : list Z) : ef_state :=
  let a := ef_arr s in let n := ef_len s in
  if (n <? ef_cap s)%nat
  then EfState (ef_w s) (ef_rs s) (ef_seen s) (ef_cur s) a (S n) (ef_cap s)
         (fupd (ef_mem s) a (fupd (ef_mem s a) n name)) (ef_fresh s) (ef_pcs s)
  else EfState (ef_w s) (ef_rs s) (ef_seen s) (ef_cur s) (ef_fresh s) (S n) (Nat.max (S n) (grow n))
         (fupd (ef_mem s) (ef_fresh s)
            (fun i => if (i <? n)%nat then ef_mem s a i else if (i =? n)%nat then name else ef_mem s (ef_fresh s) i))
         (S (ef_fresh s)) (ef_pcs s).

(** One step of goroutine [t]; [op] is what it calls if it is outside. errors/errors.go:83-140. A goroutine that waits for the lock
    does nothing.  Simplified: after a panic at line 117 the deferred RUnlock does not run (C158 and C183: there is none). *)
Definition ef_step (grow : nat -> nat) (s : ef_state) (t : nat) (op : er_op) : ef_state * list (ext er_op er_res) :=
  let lock w rs seen pc := ef_go (ef_set_lock s w rs seen) t pc in
  match ef_pcs s t with
  | FIdle => (ef_go s t (match op with EReg name => FLock name | EShowAll => FHead | _ => FRLock (FCall op) end), [Inv t op])
  | FLock name =>
      match ef_w s, ef_rs s with
      | None, [] => (lock (Some t) [] (ef_seen s) (FCheck name), [])
      | _, _ => (s, [])
      end
  | FCheck name => (ef_go s t (if ef_cur s <? g_id_max then FAppend name else FUnlock name (EId (g_id_min - 1) false)), [])
  | FAppend name => (ef_go (ef_append grow s name) t (FInc name), [])
  | FInc name => (ef_go (ef_set_cur s (wrap 32 (ef_cur s + 1))) t (FId name), [])
  | FId name => (ef_go s t (FUnlock name (EId (ef_cur s) true)), [])
  | FUnlock name r => (lock None (ef_rs s) (ef_seen s) (FRet (EReg name) r), [])
  | FRLock k =>
      match ef_w s with
      | None => (lock None (t :: ef_rs s) (ef_seen s) (FValid k), [])
      | Some _ => (s, [])
      end
  | FValid k =>
      (ef_go s t (if (g_id_min <=? for_id k) && (for_id k <=? ef_cur s) then FIndex k else FRUnlock k [] false), [])
  | FIndex k =>
      let i := wrap 32 (for_id k - g_id_min) in
      (ef_go s t (if (0 <=? i) && (i <? Z.of_nat (ef_len s)) then FRUnlock k (ef_mem s (ef_arr s) (Z.to_nat i)) true else FDead), [])
  | FRUnlock k name ok => (lock (ef_w s) (remove Nat.eq_dec t (ef_rs s)) (t :: ef_seen s) (for_next k name ok), [])
  | FHead =>
      (ef_go s t (FLoop (bytes_of "[errors] Count:" ++ fmt_d (wrap 32 (wrap 32 (ef_cur s - g_id_min) + 1))) g_id_min), [])
  | FLoop buf id => (ef_go s t (if id <=? ef_cur s then FRLock (FShow (buf ++ [10]) id) else FRet EShowAll (EStr buf)), [])
  | FRet o r => (ef_go s t FIdle, [Ret t o r])
  | FDead => (s, [])
  end.
(** After package initialisation (errors/errors.go:40-58): init replaces the slice by one of a single element. *)
Definition ef_init : ef_state :=
  EfState None [] [] (er_cur (fst err_start)) 0 1 1 (fun _ _ => bytes_of "unknown error") 1 (fun _ => FIdle).

(** The locations (errors/errors.go:53-58): what the lock synchronises by, namely that Unlock is before every later Lock and RLock,
    and RUnlock of each goroutine before every later Lock; g_id_cur_max; the header of g_id2err; the elements of its arrays. *)
Inductive ef_loc := EMu | ERd (t : nat) | ECur | ESlice | EElt (a i : nat).
(** Which locations a step touches (errors/errors.go:84-91, 102, 104, 112-122). *)
Definition ef_accs (s : ef_state) (t : nat) (op : er_op) : list (acc ef_loc) :=
  match ef_pcs s t with
  | FLock _ => match ef_w s, ef_rs s with None, [] => ALoad EMu :: map (fun u => ALoad (ERd u)) (ef_seen s) | _, _ => [] end
  | FCheck _ => [PRead ECur]
  | FAppend _ =>
      let a := ef_arr s in let n := ef_len s in
      if (n <? ef_cap s)%nat then [PRead ESlice; PWrite (EElt a n); PWrite ESlice]
      else PRead ESlice :: map (fun i => PRead (EElt a i)) (seq 0 n) ++ map (fun i => PWrite (EElt (ef_fresh s) i)) (seq 0 (S n)) ++ [PWrite ESlice]
  | FInc _ => [PRead ECur; PWrite ECur]
  | FId _ => [PRead ECur]
  | FUnlock _ _ => [AStore EMu]
  | FRLock _ => match ef_w s with None => [ALoad EMu] | Some _ => [] end
  | FValid k => if g_id_min <=? for_id k then [PRead ECur] else []
  | FIndex k =>
      let i := wrap 32 (for_id k - g_id_min) in
      PRead ESlice :: (if (0 <=? i) && (i <? Z.of_nat (ef_len s)) then [PRead (EElt (ef_arr s) (Z.to_nat i))] else [])
  | FRUnlock _ _ _ => [AStore (ERd t)]
  | FHead | FLoop _ _ => [PRead ECur]
  | FIdle | FRet _ _ | FDead => []
  end.
(** What a location holds (errors/errors.go:53-58). *)
Inductive ef_cell := VLock | VNum (z : Z) | VSlice (a n c : nat) | VStr (s : list Z).
(** errors/errors.go:53-58. *)
Definition ef_at (s : ef_state) (l : ef_loc) : ef_cell :=
  match l with
  | EMu | ERd _ => VLock
  | ECur => VNum (ef_cur s)
  | ESlice => VSlice (ef_arr s) (ef_len s) (ef_cap s)
  | EElt a i => VStr (ef_mem s a i)
  end.
(** What a step may use besides: the state of the lock (errors/errors.go:56) and the allocator (89). *)
Definition ef_env (s : ef_state) : option nat * list nat * list nat * nat := (ef_w s, ef_rs s, ef_seen s, ef_fresh s).
