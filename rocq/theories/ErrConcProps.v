(** Properties of package errors under concurrent use. *)
From Coq Require Import String.
From Coq Require Import ZArith List Bool.
From Verif Require Import GoBase GoLists GoStrings MathModel ConcBase RegModel RegSpec ErrConcModel ErrConcSpec ErrConcProofs ErrConcMore.
Import ListNotations.
Open Scope Z_scope.

(** C158: under every schedule of any number of goroutines the calls of Reg, Get, String and Error behave as if they were made one
    after the other, each at some moment between its call and its return; and no call of the package panics. *)
Theorem C158_errors_linearizable : forall sched, Forall (fun e => er_ok (snd e) /\ snd e <> EShowAll) sched ->
  linearizable er_seq [] (snd (crun ec_step ec_init sched)).
Proof. exact ec_lin. Qed.
Print Assumptions C158_errors_linearizable.
Theorem C158_errors_no_panic : forall sched t, sched_ok sched -> ec_pcs (ec_at sched) t <> XDead.
Proof. exact no_dead. Qed.
Print Assumptions C158_errors_no_panic.
(** Two registrations and a lookup that overlap. *)
Example C158_ex : snd (crun ec_step ec_init
  [(0%nat, EReg [97]); (1%nat, EReg [98]); (2%nat, EGet 1002); (1%nat, EGet 0); (2%nat, EGet 0); (0%nat, EGet 0); (1%nat, EGet 0); (2%nat, EGet 0); (0%nat, EGet 0)]) =
  [Inv 0%nat (EReg [97]); Inv 1%nat (EReg [98]); Inv 2%nat (EGet 1002); Ret 1%nat (EReg [98]) (EId 1002 true);
   Ret 2%nat (EGet 1002) (EName [98] true); Ret 0%nat (EReg [97]) (EId 1003 true)].
Proof. vm_compute. reflexivity. Qed.

(** C159 (partial): the text that ShowAll returns is the one that belongs to the names registered at some moment of the call.  Proved if no
    name is added during the call.  Missing: registrations during the call, for which it is false; the next theorem says
    exactly what the text is then. *)
Theorem C159_show_all_partial : forall l0 l t r, sched_ok (l0 ++ l) -> returns t EShowAll r l0 l -> names_at (l0 ++ l) = names_at l0 ->
  r = snd (er_spec (tl (names_at l0)) EShowAll).
Proof. exact show_all_quiet. Qed.
Print Assumptions C159_show_all_partial.
(** The count is that of one moment of the call, the list that of a later moment. *)
Theorem C159_show_all_exact : forall l0 l t r, sched_ok (l0 ++ l) -> returns t EShowAll r l0 l ->
  exists l1 l2 l3, l = l1 ++ l2 ++ l3 /\
    r = EStr (report (length (names_at (l0 ++ l1))) (names_at (l0 ++ l1 ++ l2))) /\
    exists more, names_at (l0 ++ l1 ++ l2) = names_at (l0 ++ l1) ++ more.
Proof. exact show_all_exact. Qed.
Print Assumptions C159_show_all_exact.
Theorem C159_show_all_refuted : exists l0 l t r, sched_ok (l0 ++ l) /\ returns t EShowAll r l0 l /\
  r = EStr (report 1 [bytes_of "unknown error"; [97]]) /\ forall a, snd (er_spec a EShowAll) <> r.
Proof. exact show_all_false. Qed.
Print Assumptions C159_show_all_refuted.
(** A registration before the call. *)
Example C159_ex :
  let l0 := [(1%nat, EReg [97]); (1%nat, EReg [97]); (1%nat, EReg [97])] in
  let l := repeat (0%nat, EShowAll) 7 in
  ec_pcs (ec_at (l0 ++ l)) 0%nat = XRet EShowAll (EStr (bytes_of "[errors] Count:2" ++ [10] ++
    bytes_of "error#1001 (unknown error)" ++ [10] ++ bytes_of "error#1002 (a)")) /\
  names_at (l0 ++ l) = [bytes_of "unknown error"; [97]].
Proof. vm_compute. auto. Qed.

(** C160 (partial): the text of StdErr(e) is that of e after the id and name of the standard error.  Proved, with the name that id
    really has (see C46), for texts without percent signs, whatever was registered.  Missing: texts with percent signs, which
    are taken for a format; for these it is false, whatever fmt does with verbs that have no argument. *)
Theorem C160_std_err_partial : forall other ops s os msg, Forall er_ok ops -> run_ops er_step (fst err_start) ops = Ok (s, os) ->
  ~ In 37 msg -> std_err_text other s msg = Ok (bytes_of "error#1001 (unknown error): " ++ msg).
Proof. exact std_err_ok. Qed.
Print Assumptions C160_std_err_partial.
Theorem C160_std_err_refuted : forall other, exists msg,
  std_err_text other (fst err_start) msg <> Ok (bytes_of "error#1001 (unknown error): " ++ msg).
Proof. exact std_err_false. Qed.
Print Assumptions C160_std_err_refuted.
Example C160_ex : std_err_text (fun s => s) (fst err_start) (bytes_of "disk full") = Ok (bytes_of "error#1001 (unknown error): disk full") /\
  std_err_text (fun s => s) (fst err_start) (bytes_of "100%%") = Ok (bytes_of "error#1001 (unknown error): 100%").
Proof. vm_compute. auto. Qed.
