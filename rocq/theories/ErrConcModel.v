(** Concurrent use of package errors (errors/errors.go), and errors/errors.go:138-140
    StdErr. *)
From Coq Require Import String.
From Coq Require Import ZArith List Bool.
From Verif Require Import GoBase GoStrings MathModel ConcBase RegModel.
Import ListNotations.
Open Scope Z_scope.

(** Where a goroutine is: outside; about to enter the critical section of Reg (errors/errors.go:84), Get (113; String and Error call
    it), or about to read g_id_cur_max in the header of ShowAll (102); before the comparison of the loop of ShowAll with the text so far and
    the id (104); before the critical section of id.String() in that loop (106, 113); before the return; after a panic. *)
Inductive ec_pc := XIdle | XCall (op : er_op) | XLoop (buf : list Z) (id : Z) | XStr (buf : list Z) (id : Z)
  | XRet (op : er_op) (r : er_res) | XDead.
(** The package variables (errors/errors.go:53-58) and the goroutines. *)
Record ec_state := EcState { ec_errs : errs; ec_pcs : nat -> ec_pc }.
(** One step of goroutine [t]; [op] is what it calls if it is outside.  Simplified: a critical section of g_id2err_lock is one step
    (the lock excludes writers), the unlocked reads of g_id_cur_max at lines 102 and 104 are single steps that see the last value written.
    errors/errors.go:83-140. *)
Definition ec_step (s : ec_state) (t : nat) (op : er_op) : ec_state * list (ext er_op er_res) :=
  let e := ec_errs s in
  let go pc := EcState e (fupd (ec_pcs s) t pc) in
  match ec_pcs s t with
  | XIdle => (go (XCall op), [Inv t op])
  | XCall EShowAll =>
      (go (XLoop (bytes_of "[errors] Count:" ++ fmt_d (wrap 32 (wrap 32 (er_cur e - g_id_min) + 1))) g_id_min), [])
  | XCall o =>
      match er_step e o with
      | Ok (e', r) => (EcState e' (fupd (ec_pcs s) t (XRet o r)), [])
      | _ => (go XDead, [])
      end
  | XLoop buf id =>
      if id <=? er_cur e then (go (XStr (buf ++ [10]) id), []) else (go (XRet EShowAll (EStr buf)), [])
  | XStr buf id =>
      match err_string e id with
      | Ok text => (go (XLoop (buf ++ text) (wrap 32 (id + 1))), [])
      | _ => (go XDead, [])
      end
  | XRet o r => (go XIdle, [Ret t o r])
  | XDead => (s, [])
  end.
(** After package initialisation (errors/errors.go:40-58). *)
Definition ec_init : ec_state := EcState (fst err_start) (fun _ => XIdle).

(** fmt.Sprintf of a format without arguments (called at errors/with_id_string.go:14): bytes are copied, two percent signs give
    one; what is written for any other percent sign and all that follows is left open: [other]. *)
Fixpoint sprintf0 (other : list Z -> list Z) (s : list Z) : list Z :=
  match s with
  | [] => []
  | c :: t =>
      if c =? 37 then match t with
                      | d :: t' => if d =? 37 then 37 :: sprintf0 other t' else other s
                      | [] => other s
                      end
      else c :: sprintf0 other t
  end.
(** errors/errors.go:138-140 StdErr and errors/with_id_string.go:13-24: the text of StdErr(e) if that of [e] is [msg]. *)
Definition std_err_text (other : list Z -> list Z) (s : errs) (msg : list Z) : outcome (list Z) :=
  err_text s (snd err_start) (sprintf0 other msg).
