(** Model of factory/factory.go, factory/factorys.go and factory/factoryi.go. *)
From Coq Require Import ZArith List Bool.
From Verif Require Import GoBase GoMap.
Import ListNotations.
Open Scope Z_scope.

(** The map of a factory: factory/factorys.go:7-9, factory/factoryi.go:7-9.  Keys and Creater values are numbers here. *)
Definition factory := list (Z * Z).
(** factory/factorys.go:3-5 NewFactoryS, factory/factoryi.go:3-5 NewFactoryI, factory/factory.go:8 g_factory. *)
Definition fc_init : factory := [].
(** Calls: factory/factorys.go:11-24, factory/factoryi.go:11-24, factory/factory.go:11-20. *)
Inductive fc_op := FAdd (typ creater : Z) | FRemove (typ : Z) | FCreate (typ arg : Z).
(** Results: whether the error is nil; the value, [None] for nil. *)
Inductive fc_res := FErr (is_nil : bool) | FVal (v : option Z).
(** factory/factorys.go:11-13 AddCreater, 15-17 RemoveCreater, 19-24 Create (factory/factoryi.go: the same lines); [make c a] is what Create
    of Creater [c] returns for the arguments [a].  Simplified: a Creater returns, and its result depends only on its
    arguments. *)
Definition fc_step (make : Z -> Z -> option Z) (s : factory) (op : fc_op) : outcome (factory * fc_res) :=
  match op with
  | FAdd _ _ => Ok (s, FErr true)
  | FRemove _ => Ok (s, FErr true)
  | FCreate t a => Ok (s, FVal (match mfind Z.eqb t s with Some c => make c a | None => None end))
  end.
