(** What concurrent calls of package regable promise. *)
From Coq Require Import String.
From Coq Require Import ZArith List Bool Arith.
From Verif Require Import GoBase GoLists GoStrings ConcBase RegModel RegObjModel RegObjSpec.
Import ListNotations.
Open Scope Z_scope.

(** Calls that leave the registry itself alone: everything but registering, changing limits and FinishReg. *)
Definition rf_safe (op : ro_op) : Prop :=
  match op with RBase (GNew _) | RBase (GMaxReg _ _) | RBase (GReg _ _ _) | RBase GFinish | RRegO _ _ _ => False | _ => ro_ok op end.
Definition rf_sched_ok (sched : list (nat * ro_op)) : Prop := Forall (fun e => rf_safe (snd e)) sched.
Definition is_text (op : ro_op) : bool := match op with GString _ | GShowRegers | GShowAll => true | _ => false end.

(** Registries that differ at most in the values of their cells. *)
Definition names (g : areger) : list Z * Z * list (list Z) := (ag_name g, ag_max g, map fst (ag_cells g)).
Definition same_names (a b : aregs) : Prop := as_locked a = as_locked b /\ map names (as_list a) = map names (as_list b).

(** The calls one after the other; but a text of a whole reger may show values of different moments. *)
Definition rf_seq (a : aregs) (op : ro_op) (r : ro_res) (b : aregs) : Prop :=
  if is_text op then b = a /\ exists a', same_names a a' /\ ro_spec a' op = Ok (a', r)
  else ro_spec a op = Ok (b, r).
(** The calls one after the other, texts included. *)
Definition rf_strict (a : aregs) (op : ro_op) (r : ro_res) (b : aregs) : Prop := ro_spec a op = Ok (b, r).
(** The object given to the call is nil or stands for a record of the registry. *)
Definition obj_in (a : aregs) (op : ro_op) : Prop :=
  match op with
  | OGet (Some p) | OGetNoErr (Some p) | OSet (Some p) _ | OName (Some p) | OId (Some p) | OString (Some p) => ocell (as_list a) p <> None
  | _ => True
  end.

(** Registries for examples: one reger "r", with nothing or with the cells "x" and "y". *)
Definition one_reger : list ro_op := [RBase (GNew [114])].
Definition two_cells : list ro_op := [RBase (GNew [114]); RBase (GReg 0 [120] 0); RBase (GReg 0 [121] 0)].
Definition state_of (ops : list ro_op) : regs := match run_ops ro_step regs_init ops with Ok (s, _) => s | _ => regs_init end.
Definition cells_of (ops : list ro_op) : aregs := match run_ops ro_spec (ARegs false []) ops with Ok (a, _) => a | _ => ARegs false [] end.
(** Two goroutines register in the same reger; then both read. *)
Definition reg_bad : list (nat * ro_op) :=
  let p := (0%nat, RBase (GReg 0 [97] 5)) in let q := (1%nat, RBase (GReg 0 [98] 6)) in
  [p; p; p; q; q; q; p; q; p; q; p; q] ++ repeat (1%nat, RBase (GGet 16777217)) 9.
(** Goroutine 1 makes a text; after it has read "x", goroutine 0 sets "x" and then "y". *)
Definition text_bad : list (nat * ro_op) :=
  repeat (1%nat, GString 0) 6 ++ repeat (0%nat, OSet (Some (0%nat, 0%nat)) 1) 5 ++ repeat (0%nat, OSet (Some (0%nat, 1%nat)) 1) 5 ++ repeat (1%nat, GString 0) 6.
