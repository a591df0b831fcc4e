(** What the file lock means. *)
From Coq Require Import ZArith List Bool.
From Verif Require Import GoBase ConcBase FileLockModel.
Import ListNotations.
Open Scope Z_scope.

(** The path of every Mutex value (0: none yet) and which value has locked a path. *)
Record fl_abs := FA { fa_path : nat -> nat; fa_held : nat -> option nat }.
Definition fl_abs0 : fl_abs := FA (fun _ => 0%nat) (fun _ => None).

(** One call, at one moment. [busy] is the error of the operating system for a
    file that is locked; 536870913 is EACCES, on which Lock waits; 2 is "file not
    found". *)
Definition fl_spec (busy : Z) (file : nat -> bool) (a : fl_abs) (op : fl_op) (r : fl_res) (b : fl_abs) : Prop :=
  match op with
  | FInit m p =>
      match fa_path a m with
      | O => r = FOk true /\ b = FA (fupd (fa_path a) m p) (fa_held a)
      | _ => r = FOk false /\ b = a
      end
  | FLock m =>
      let p := fa_path a m in
      if (negb (Nat.eqb p 0) && file p)%bool then
        match fa_held a p with
        | None => r = FErr None /\ b = FA (fa_path a) (fupd (fa_held a) p (Some m))
        | Some _ => busy <> 536870913 /\ r = FErr (Some busy) /\ b = a
        end
      else r = FErr (Some 2) /\ b = a
  | FUnlock m =>
      r = FUnit /\ fa_path b = fa_path a /\
      forall p, fa_held b p = match fa_held a p with
                              | Some n => if Nat.eqb n m then None else Some n
                              | None => None
                              end
  end.

(** Every goroutine has its own Mutex value: goroutine [t] uses value [t]. *)
Definition own (sched : list (nat * fl_op)) : Prop := Forall (fun e => fl_obj (snd e) = fst e) sched.
(** Whether goroutine [t] has the lock of its value: a Lock of it has returned nil and it has
    not called Unlock since. *)
Definition fl_after (t : nat) (b : bool) (e : ext fl_op fl_res) : bool :=
  match e with
  | Ret u (FLock _) (FErr None) => if Nat.eqb u t then true else b
  | Inv u (FUnlock _) => if Nat.eqb u t then false else b
  | _ => b
  end.
Definition has_lock (h : list (ext fl_op fl_res)) (t : nat) : bool := fold_left (fl_after t) h false.
(** The call goroutine [t] is in. *)
Definition call_after (t : nat) (o : option fl_op) (e : ext fl_op fl_res) : option fl_op :=
  match e with
  | Inv u op => if Nat.eqb u t then Some op else o
  | Ret u _ _ => if Nat.eqb u t then None else o
  end.
Definition in_call (h : list (ext fl_op fl_res)) (t : nat) : option fl_op := fold_left (call_after t) h None.

(** The same for RWMutex: [t] is writing, [t] is reading. *)
Definition fr_writing (h : list (ext fr_op unit)) (t : nat) : bool :=
  fold_left (fun b e => match e with
                        | Ret u FrLock _ => if Nat.eqb u t then true else b
                        | Inv u FrUnlock => if Nat.eqb u t then false else b
                        | _ => b
                        end) h false.
Definition fr_reading (h : list (ext fr_op unit)) (t : nat) : bool :=
  fold_left (fun b e => match e with
                        | Ret u FrRLock _ => if Nat.eqb u t then true else b
                        | Inv u FrRUnlock => if Nat.eqb u t then false else b
                        | _ => b
                        end) h false.
