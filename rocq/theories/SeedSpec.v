(** Terms for the properties of new generators. *)
From Coq Require Import ZArith List Bool.
From Verif Require Import GoBase RandModel RandSpec SeedModel.
Import ListNotations.
Open Scope Z_scope.

(** How many numbers the calls take from the global generator. *)
Definition takes (op : sd_op) : nat :=
  match op with SNew _ _ | SGRand | SGRange _ _ | SGMax _ => 1%nat | _ => 0%nat end.
Definition taken (ops : list sd_op) : nat := list_sum (map takes ops).

(** The [i]-th number (from 0) that the generator with seed [x] returns, if RandMax(n) is called again and again. *)
Fixpoint max_calls (g : gen) (n : Z) (i : nat) (x : Z) : outcome Z :=
  ' (x', r) <- rand_max g x n ;;
  match i with O => Ok r | S i => max_calls g n i x' end.
(** The same for Rand(). *)
Fixpoint rand_calls (g : gen) (i : nat) (x : Z) : Z :=
  let (x', r) := rand g x in
  match i with O => r | S i => rand_calls g i x' end.

(** The calls of generator number [i]. *)
Definition mine (i : nat) (op : sd_op) : bool :=
  match op with SRand j | SRange j _ _ | SMax j _ | SSrand j _ | SSeed j => Nat.eqb i j | _ => false end.
(** The same call of the first generator. *)
Definition first_one (op : sd_op) : sd_op :=
  match op with
  | SRand _ => SRand 0 | SRange _ a b => SRange 0 a b | SMax _ n => SMax 0 n | SSrand _ y => SSrand 0 y | SSeed _ => SSeed 0
  | _ => op
  end.
(** The calls of the generator of the package: the functions, and NewRand64 without a seed. *)
Definition common_one (op : sd_op) : bool := match op with SNew _ _ | SGRand | SGRange _ _ | SGMax _ => true | _ => false end.
(** How many generators the calls create. *)
Definition created (ops : list sd_op) : nat := length (filter (fun op => match op with SNew _ _ | SNewS _ => true | _ => false end) ops).
(** The results of those calls that [p] picks. *)
Definition picked (p : sd_op -> bool) (ops : list sd_op) (rs : list Z) : list Z := map snd (filter (fun e => p (fst e)) (combine ops rs)).
