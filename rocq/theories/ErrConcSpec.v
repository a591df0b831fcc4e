(** Terms for the properties of package errors under concurrent use. *)
From Coq Require Import String.
From Coq Require Import ZArith List Bool.
From Verif Require Import GoBase GoStrings MathModel ConcBase RegModel RegSpec ErrConcModel.
Import ListNotations.
Open Scope Z_scope.

(** The state after a schedule. *)
Definition ec_at (sched : list (nat * er_op)) : ec_state := fst (crun ec_step ec_init sched).
(** The names that are registered after a schedule, that of the package itself first. *)
Definition names_at (sched : list (nat * er_op)) : list (list Z) := er_names (ec_errs (ec_at sched)).
(** A call of [op] by [t] started at the end of [l0] and did not return during [l]. *)
Definition in_call (t : nat) (op : er_op) (l0 l : list (nat * er_op)) : Prop :=
  ec_pcs (ec_at l0) t = XIdle /\ (exists rest, l = (t, op) :: rest) /\
  forall p q, l = p ++ q -> p <> [] -> ec_pcs (ec_at (l0 ++ p)) t <> XIdle.
(** The call that returns in the next step of [t] after [l0 ++ l] started at the end of [l0]. *)
Definition returns (t : nat) (op : er_op) (r : er_res) (l0 l : list (nat * er_op)) : Prop :=
  in_call t op l0 l /\ forall x, snd (ec_step (ec_at (l0 ++ l)) t x) = [Ret t op r].
(** The text of ShowAll with the count [n] and the names [a]. *)
Definition report (n : nat) (a : list (list Z)) : list Z :=
  bytes_of "[errors] Count:" ++ fmt_d (Z.of_nat n) ++ err_lines 1001 a.
(** Arguments are uint32. *)
Definition sched_ok (sched : list (nat * er_op)) : Prop := Forall (fun e => er_ok (snd e)) sched.
(** The sequential object. *)
Definition er_seq (a : list (list Z)) (op : er_op) (r : er_res) (a' : list (list Z)) : Prop := er_spec a op = (a', r).
