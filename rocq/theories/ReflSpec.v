(** What package reflect promises. *)
From Coq Require Import ZArith List Bool.
From Verif Require Import GoBase ReflModel.
Import ListNotations.
Open Scope Z_scope.

(** The types whose values can be compared with <: integers, floating-point numbers and strings (Go specification,
    "Comparison operators"), whether predeclared or defined. *)
Definition ordered (t : gtype) : Prop :=
  In (kind_of t) [KInt; KInt8; KInt16; KInt32; KInt64; KUint; KUint8; KUint16; KUint32; KUint64; KUintptr; KFloat32; KFloat64; KString].
(** The type is given by a predeclared name. *)
Definition predeclared (t : gtype) : Prop := exists k, t = Predeclared k.
(** The type of a value that is not nil. *)
Definition has_type (x : iface) (t : gtype) : Prop := exists v, x = Some (t, v).
(** "type MyInt int" of a package main. *)
Definition ex_my_int : gtype := Defined [109; 97; 105; 110; 46; 77; 121; 73; 110; 116] KInt.
