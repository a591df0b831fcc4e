(** Model of stl/functorcmp.gp_int.go (comparison objects). *)
From Coq Require Import ZArith List Bool String.
From Verif Require Import GoBase.
Open Scope Z_scope.

(** stl/functorcmp.gp_int.go:26-29,34-37 CMPLesser / CmpIntLesser.
    A CmpInt is a byte; it is modelled by a [Z]. *)
Definition CMPLesser : Z := 0.
(** stl/functorcmp.gp_int.go:26-29,34-37 CMPGreater / CmpIntGreater. *)
Definition CMPGreater : Z := 1.

(** stl/functorcmp.gp_int.go:101-106 CmpInt.less. *)
Definition cmp_less (left right : Z) : bool := left <? right.
(** stl/functorcmp.gp_int.go:109-114 CmpInt.great. *)
Definition cmp_great (left right : Z) : bool := right <? left.

(** stl/functorcmp.gp_int.go:46-54 CmpInt.F: false for any other byte. *)
Definition cmp_F (me left right : Z) : bool :=
  if me =? CMPLesser then cmp_less left right
  else if me =? CMPGreater then cmp_great left right
  else false.

(** stl/functorcmp.gp_int.go:76-83 CmpInt.CreateByBool. *)
Definition cmp_by_bool (bigFirst : bool) : Z :=
  if bigFirst then CMPGreater else CMPLesser.

(** stl/functorcmp.gp_int.go:86-98 CmpInt.CreateByName and 40-43 CreateCmpInt;
    Go strings are modelled by Coq strings of bytes. *)
Definition cmp_by_name (cmpName : string) : outcome Z :=
  if (cmpName =? "")%string || (cmpName =? "Lesser")%string then Ok CMPLesser
  else if (cmpName =? "Greater")%string then Ok CMPGreater
  else Panic.

(** stl/functorcmp.gp_int.go:63-73 CmpInt.String. *)
Definition cmp_string (me : Z) : string :=
  if me =? CMPLesser then "Lesser"%string
  else if me =? CMPGreater then "Greater"%string
  else "error cmp value"%string.
