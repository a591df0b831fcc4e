(** What a factory should do, independent of the code. *)
From Coq Require Import ZArith List Bool.
From Verif Require Import GoBase FactoryModel.
Import ListNotations.
Open Scope Z_scope.

(** A table of creaters, as a function. *)
Definition table := Z -> option Z.
Definition fc_spec (make : Z -> Z -> option Z) (s : table) (op : fc_op) : table * fc_res :=
  match op with
  | FAdd t c => (fun u => if u =? t then Some c else s u, FErr true)
  | FRemove t => (fun u => if u =? t then None else s u, FErr true)
  | FCreate t a => (s, FVal (match s t with Some c => make c a | None => None end))
  end.
Definition is_add (op : fc_op) : bool := match op with FAdd _ _ => true | _ => false end.
(** What is observed of calls that nothing was ever added for. *)
Definition empty_result (op : fc_op) : fc_res := match op with FCreate _ _ => FVal None | _ => FErr true end.
