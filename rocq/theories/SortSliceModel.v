(** Model of stl/sort_slice.gp_int.go (IntSortSlice).  The same template is
    instantiated for tree nodes in stl/tree.gp_int.go, so the element type is a
    parameter. *)
From Coq Require Import ZArith List Bool.
From Verif Require Import GoBase.
Import ListNotations.
Open Scope Z_scope.

(** stl/sort_slice.gp_int.go:45-47 IntSortSlice: the slice d with its backing
    array; [garr] has the length of the capacity, the first [glen] cells are
    visible. *)
Record gslice (A : Type) := GSlice { garr : list A; glen : nat }.
Arguments GSlice {A}.
Arguments garr {A}.
Arguments glen {A}.

(** The visible elements d[0..len) (Go language; no /repo lines). *)
Definition visible {A} (s : gslice A) : list A := firstn (glen s) (garr s).

(** Go's built-in append(d[:n], vs...): in place when the capacity suffices,
    otherwise into a fresh array with an unspecified amount [grow] of spare
    zeroed cells.  [vs] may alias d: Go copies like memmove, so reading [vs]
    first is faithful (Go language; no /repo lines). *)
Definition gappend {A} (zero : A) (grow : nat -> nat) (s : gslice A) (vs : list A) : gslice A :=
  let n := (glen s + length vs)%nat in
  if (n <=? length (garr s))%nat
  then GSlice (firstn (glen s) (garr s) ++ vs ++ skipn n (garr s)) n
  else GSlice (visible s ++ vs ++ repeat zero (grow n)) n.

(** Reslicing d[:n]: panics for n < 0 or n > cap (Go language; no /repo lines). *)
Definition greslice {A} (s : gslice A) (n : Z) : outcome (gslice A) :=
  if (0 <=? n) && (n <=? zlen (garr s)) then Ok (GSlice (garr s) (Z.to_nat n)) else Panic.

(** stl/sort_slice.gp_int.go:50-52 Init (and 38-42 New): panics when the
    capacity is negative. *)
Definition ss_init {A} (zero : A) (capacity : Z) : outcome (gslice A) :=
  if capacity <? 0 then Panic else Ok (GSlice (repeat zero (Z.to_nat capacity)) 0).

(** stl/sort_slice.gp_int.go:118-120 Len. *)
Definition ss_len {A} (s : gslice A) : Z := Z.of_nat (glen s).

(** stl/sort_slice.gp_int.go:65-68 Push. *)
Definition ss_push {A} zero grow (s : gslice A) (v : A) : gslice A * Z :=
  let s' := gappend zero grow s [v] in (s', ss_len s').

(** stl/sort_slice.gp_int.go:71-80 Insert. *)
Definition ss_insert {A} zero grow (s : gslice A) (v : A) (idx : Z) : outcome (gslice A * Z) :=
  if (0 <=? idx) && (idx <? ss_len s) then
    right <- zslice (visible s) (idx + 1) (ss_len s) ;;
    s1 <- greslice s idx ;;
    let s2 := gappend zero grow s1 [v] in
    let s3 := gappend zero grow s2 right in
    Ok (s3, ss_len s3)
  else
    let s' := gappend zero grow s [v] in Ok (s', ss_len s').

(** stl/sort_slice.gp_int.go:101-106 Get; [None] stands for ok=false. *)
Definition ss_get {A} (s : gslice A) (idx : Z) : outcome (option A) :=
  if (0 <=? idx) && (idx <? ss_len s) then r <- zget (visible s) idx ;; Ok (Some r) else Ok None.

(** stl/sort_slice.gp_int.go:109-115 MustGet. *)
Definition ss_must_get {A} (s : gslice A) (idx : Z) : outcome A :=
  o <- ss_get s idx ;; match o with Some r => Ok r | None => Panic end.

(** stl/sort_slice.gp_int.go:83-89 Remove. *)
Definition ss_remove {A} zero grow (s : gslice A) (idx : Z) : outcome (gslice A * option A) :=
  o <- ss_get s idx ;;
  match o with
  | Some r =>
      right <- zslice (visible s) (idx + 1) (ss_len s) ;;
      s1 <- greslice s idx ;;
      Ok (gappend zero grow s1 right, Some r)
  | None => Ok (s, None)
  end.

(** stl/sort_slice.gp_int.go:92-98 Pop: reslices even when empty. *)
Definition ss_pop {A} (s : gslice A) : outcome (gslice A * option A) :=
  o <- (if 0 <? ss_len s then r <- zget (visible s) (ss_len s - 1) ;; Ok (Some r) else Ok None) ;;
  s' <- greslice s (ss_len s - 1) ;;
  Ok (s', o).

(** stl/sort_slice.gp_int.go:129-131 Swap. *)
Definition ss_swap {A} (s : gslice A) (i j : Z) : outcome (gslice A) :=
  a <- zget (visible s) i ;;
  b <- zget (visible s) j ;;
  d1 <- zset (garr s) i b ;;
  d2 <- zset d1 j a ;;
  Ok (GSlice d2 (glen s)).
