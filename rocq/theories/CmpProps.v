(** Property C01: the integer comparators (stl/functorcmp.gp_int.go). *)
From Coq Require Import ZArith Bool String Lia.
From Verif Require Import GoBase CmpModel CmpProofs.
Open Scope Z_scope.

(** C01: F of the two predefined comparators is exactly [<] resp. [>]; any other
    byte value compares everything as false; each is a strict total order and the mirror
    image of the other. *)
Theorem C01_cmp_strict_total_orders :
  (forall a b, cmp_F CMPLesser a b = true <-> a < b) /\
  (forall a b, cmp_F CMPGreater a b = true <-> b < a) /\
  (forall c a b, c <> CMPLesser -> c <> CMPGreater -> cmp_F c a b = false) /\
  (forall c, c = CMPLesser \/ c = CMPGreater ->
     (forall a, cmp_F c a a = false) /\
     (forall x y z, cmp_F c x y = true -> cmp_F c y z = true -> cmp_F c x z = true) /\
     (forall x y, x <> y -> cmp_F c x y = negb (cmp_F c y x))) /\
  (forall a b, cmp_F CMPLesser a b = cmp_F CMPGreater b a).
Proof. exact cmp_orders. Qed.
Print Assumptions C01_cmp_strict_total_orders.

(** C01, selection: CreateByBool and CreateByName choose the comparator, and
    every other name panics. *)
Theorem C01_cmp_selection :
  cmp_by_bool false = CMPLesser /\ cmp_by_bool true = CMPGreater /\
  (forall s, cmp_by_name s = Ok CMPLesser <-> s = ""%string \/ s = "Lesser"%string) /\
  (forall s, cmp_by_name s = Ok CMPGreater <-> s = "Greater"%string) /\
  (forall s, cmp_by_name s = Panic <->
     s <> ""%string /\ s <> "Lesser"%string /\ s <> "Greater"%string).
Proof. exact cmp_selection. Qed.
Print Assumptions C01_cmp_selection.

(** C01, names: String names each comparator by the name that CreateByName
    accepts for it; every other byte has a name that CreateByName rejects. *)
Theorem C01_cmp_names : forall c,
  (c = CMPLesser \/ c = CMPGreater -> cmp_by_name (cmp_string c) = Ok c) /\
  (c <> CMPLesser -> c <> CMPGreater -> cmp_string c = "error cmp value"%string /\ cmp_by_name (cmp_string c) = Panic).
Proof. exact cmp_names. Qed.
Print Assumptions C01_cmp_names.

Example C01_ex3 : cmp_string CMPGreater = "Greater"%string /\ cmp_by_name (cmp_string 7) = Panic.
Proof. vm_compute. auto. Qed.

Example C01_ex1 : cmp_F CMPGreater 7 (-3) = true /\ cmp_F CMPLesser 7 (-3) = false.
Proof. vm_compute. auto. Qed.
Example C01_ex2 : cmp_by_name "Greater" = Ok CMPGreater /\ cmp_by_name "greater" = Panic.
Proof. vm_compute. auto. Qed.
