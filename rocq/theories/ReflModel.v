(** Models of reflect/reflect.go and math/bool.go. *)
From Coq Require Import ZArith List Bool.
From Verif Require Import GoBase.
Import ListNotations.
Open Scope Z_scope.

(** The kinds of package reflect of Go (used at reflect/reflect.go:21-23). *)
Inductive kind := KBool | KInt | KInt8 | KInt16 | KInt32 | KInt64 | KUint | KUint8 | KUint16 | KUint32 | KUint64 | KUintptr
| KFloat32 | KFloat64 | KComplex64 | KComplex128 | KArray | KChan | KFunc | KInterface | KMap | KPtr | KSlice | KString | KStruct | KUnsafePointer.
(** The Go types as reflect.TypeOf tells them apart (reflect/reflect.go:9, 16, 22): predeclared types (byte is uint8, rune is
    int32), defined types with their package and name and the kind of their underlying type, pointers, and other type literals.
    Simplified: of a type literal only its kind and its text are kept. *)
Inductive gtype :=
| Predeclared (k : kind)
| Defined (nm : list Z) (k : kind)
| Pointer (t : gtype)
| Literal (k : kind) (text : list Z).
(** reflect.Type's Kind (reflect/reflect.go:22). *)
Definition kind_of (t : gtype) : kind := match t with Predeclared k | Defined _ k | Literal k _ => k | Pointer _ => KPtr end.
(** An interface value (the parameters at reflect/reflect.go:8, 15, 21 and 26): nil, or a dynamic type and a value of it.
    Simplified: values are numbers, zero being the zero value of every type and the others whatever the type means by them. *)
Definition iface := option (gtype * Z).
(** Equality of types (reflect/reflect.go:17). *)
Scheme Equality for kind.
(** Equality of types (reflect/reflect.go:17). *)
Fixpoint gtype_eqb (a b : gtype) : bool :=
  match a, b with
  | Predeclared k, Predeclared k' => kind_beq k k'
  | Defined n k, Defined n' k' => (if list_eq_dec Z.eq_dec n n' then true else false) && kind_beq k k'
  | Pointer t, Pointer t' => gtype_eqb t t'
  | Literal k n, Literal k' n' => kind_beq k k' && (if list_eq_dec Z.eq_dec n n' then true else false)
  | _, _ => false
  end.
(** reflect.TypeOf (reflect/reflect.go:9, 16, 22): nil for the nil interface. *)
Definition type_of (x : iface) : option gtype := option_map fst x.

(** reflect/reflect.go:8-12 New: a pointer to a new variable with the zero value; [addr] is the address of the new variable
    and [mem] the values at the addresses. reflect.New(nil) panics. *)
Definition refl_new (mem : Z -> iface) (addr : Z) (sample : iface) : outcome (iface * (Z -> iface)) :=
  match type_of sample with
  | None => Panic
  | Some t => Ok (Some (Pointer t, addr), fun a => if a =? addr then Some (t, 0) else mem a)
  end.
(** reflect/reflect.go:15-18 IsSameType. *)
Definition is_same_type (l r : iface) : bool :=
  match type_of l, type_of r with
  | None, None => true
  | Some a, Some b => gtype_eqb a b
  | _, _ => false
  end.
(** reflect/reflect.go:21-23 Kind: the method of a nil reflect.Type panics. *)
Definition refl_kind (l : iface) : outcome kind := match type_of l with None => Panic | Some t => Ok (kind_of t) end.
(** reflect/reflect.go:26-32 IsCmpableInnterType: the type switch compares dynamic types. *)
Definition is_cmpable (t : iface) : bool :=
  match type_of t with
  | Some (Predeclared k) =>
      match k with
      | KInt | KUint | KInt8 | KUint8 | KInt16 | KUint16 | KInt32 | KUint32 | KInt64 | KUint64 | KString | KFloat32 | KFloat64 => true
      | _ => false
      end
  | _ => false
  end.

(** math/bool.go:6-11 I. *)
Definition bool_i (me : bool) : Z := let i := 0 in if me then 1 else i.
(** math/bool.go:13-15 BToI. *)
Definition b_to_i (b : bool) : Z := bool_i b.
(** math/bool.go:16-18 ItoB. *)
Definition i_to_b (i : Z) : bool := negb (i =? 0).
