(** Vocabulary for Go run-time behaviour shared by all models.
    Nothing here corresponds to lines of /repo: these definitions fix how the
    Go language constructs used by the repository are represented. *)
From Coq Require Import ZArith List Bool.
Import ListNotations.
Open Scope Z_scope.

(** Result of running a piece of Go code: normal return, run-time panic, or
    "still running when the fuel was used up" (Go language; no /repo lines). *)
Inductive outcome (A : Type) : Type :=
| Ok (a : A)
| Panic
| Diverge.
Arguments Ok {A} a.
Arguments Panic {A}.
Arguments Diverge {A}.

(** Sequencing: a panic or divergence ends the computation
    (Go language; no /repo lines). *)
Definition bind {A B : Type} (x : outcome A) (f : A -> outcome B) : outcome B :=
  match x with
  | Ok a => f a
  | Panic => Panic
  | Diverge => Diverge
  end.

Notation "x <- e ;; k" := (bind e (fun x => k))
  (at level 61, e at next level, right associativity).
Notation "' p <- e ;; k" := (bind e (fun x => match x with p => k end))
  (at level 61, p pattern, e at next level, right associativity).

(** [len(l)] as a Go int (Go language; no /repo lines). *)
Definition zlen {A : Type} (l : list A) : Z := Z.of_nat (length l).

(** Replace element number [i] of a list; unchanged when out of range
    (helper for slice assignment; no /repo lines). *)
Fixpoint upd {A : Type} (l : list A) (i : nat) (v : A) : list A :=
  match l, i with
  | [], _ => []
  | _ :: t, O => v :: t
  | x :: t, S j => x :: upd t j v
  end.

(** Slice read [l[i]] with a natural index: panics out of range
    (Go language; no /repo lines). *)
Definition aget {A : Type} (l : list A) (i : nat) : outcome A :=
  match nth_error l i with
  | Some v => Ok v
  | None => Panic
  end.

(** Slice write [l[i] = v] with a natural index: panics out of range
    (Go language; no /repo lines). *)
Definition aset {A : Type} (l : list A) (i : nat) (v : A) : outcome (list A) :=
  if (i <? length l)%nat then Ok (upd l i v) else Panic.

(** Slice read [l[i]] with a Go int index, which may be negative: panics out of
    range (Go language; no /repo lines). *)
Definition zget {A : Type} (l : list A) (i : Z) : outcome A :=
  if i <? 0 then Panic else aget l (Z.to_nat i).

(** Slice write [l[i] = v] with a Go int index: panics out of range
    (Go language; no /repo lines). *)
Definition zset {A : Type} (l : list A) (i : Z) (v : A) : outcome (list A) :=
  if i <? 0 then Panic else aset l (Z.to_nat i) v.

(** Slice expression [l[lo:hi]] of a slice whose length equals its capacity:
    panics unless 0 <= lo <= hi <= len (Go language; no /repo lines). *)
Definition zslice {A : Type} (l : list A) (lo hi : Z) : outcome (list A) :=
  if (0 <=? lo) && (lo <=? hi) && (hi <=? zlen l)
  then Ok (firstn (Z.to_nat (hi - lo)) (skipn (Z.to_nat lo) l))
  else Panic.

(** The built-in [copy(dst, src)] for non-overlapping slices: new contents of
    [dst] and the number of elements copied (Go language; no /repo lines). *)
Definition gocopy {A : Type} (dst src : list A) : list A * Z :=
  let n := Nat.min (length dst) (length src) in
  (firstn n src ++ skipn n dst, Z.of_nat n).

(** Reduction of an unsigned machine word of [w] bits
    (Go language; no /repo lines). *)
Definition wrap (w : Z) (x : Z) : Z := x mod 2 ^ w.

(** Running a history of operations on a modelled object, collecting what each
    call returns (test driver; no /repo lines). *)
Fixpoint run_ops {St Op Obs : Type} (step : St -> Op -> outcome (St * Obs))
  (s : St) (ops : list Op) : outcome (St * list Obs) :=
  match ops with
  | [] => Ok (s, [])
  | op :: rest =>
      ' (s1, o) <- step s op ;;
      ' (s2, os) <- run_ops step s1 rest ;;
      Ok (s2, o :: os)
  end.

(** The same for an abstract object, whose operations cannot fail
    (test driver; no /repo lines). *)
Fixpoint spec_ops {St Op Obs : Type} (step : St -> Op -> St * Obs)
  (s : St) (ops : list Op) : St * list Obs :=
  match ops with
  | [] => (s, [])
  | op :: rest =>
      let (s1, o) := step s op in
      let (s2, os) := spec_ops step s1 rest in
      (s2, o :: os)
  end.
