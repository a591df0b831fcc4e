(** Properties of factories. *)
From Coq Require Import ZArith List Bool.
From Verif Require Import GoBase GoLists FactoryModel FactorySpec FactoryProofs.
Import ListNotations.
Open Scope Z_scope.

(** C161 (partial): a factory creates with the Creater that was added last for the type and not removed.  Proved for histories without
    AddCreater.  Missing: all others; AddCreater does nothing and returns no error. *)
Theorem C161_factory_partial : forall make ops, forallb (fun op => negb (is_add op)) ops = true ->
  run_ops (fc_step make) fc_init ops = Ok (fc_init, snd (spec_ops (fc_spec make) (fun _ => None) ops)).
Proof. exact fc_partial. Qed.
Print Assumptions C161_factory_partial.
(** In every history every Create returns nil and every AddCreater and RemoveCreater returns no error. *)
Theorem C161_factory_exact : forall make ops, run_ops (fc_step make) fc_init ops = Ok (fc_init, map empty_result ops).
Proof. exact fc_exact. Qed.
Print Assumptions C161_factory_exact.
Theorem C161_factory_refuted : exists make ops, forall s,
  run_ops (fc_step make) fc_init ops <> Ok (s, snd (spec_ops (fc_spec make) (fun _ => None) ops)).
Proof. exact fc_false. Qed.
Print Assumptions C161_factory_refuted.
Example C161_ex : let make := fun c a => Some (c + a) in
  run_ops (fc_step make) fc_init [FAdd 1 10; FCreate 1 5; FRemove 1; FCreate 1 5] = Ok ([], [FErr true; FVal None; FErr true; FVal None]) /\
  snd (spec_ops (fc_spec make) (fun _ => None) [FAdd 1 10; FCreate 1 5; FRemove 1; FCreate 1 5]) = [FErr true; FVal (Some 15); FErr true; FVal None].
Proof. vm_compute. auto. Qed.
