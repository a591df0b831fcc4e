From Coq Require Import ZArith List Bool.
From Verif Require Import GoBase GoLists GoMap FactoryModel FactorySpec.
Import ListNotations.
Open Scope Z_scope.

Lemma fc_exact make ops : run_ops (fc_step make) fc_init ops = Ok (fc_init, map empty_result ops).
Proof.
  induction ops as [|op ops IH]; [reflexivity|]. cbn [run_ops map].
  assert (E: fc_step make fc_init op = Ok (fc_init, empty_result op)) by (destruct op; reflexivity).
  rewrite E. cbn [bind]. rewrite IH. reflexivity.
Qed.
Lemma spec_empty make ops : forall s : table, (forall u, s u = None) -> forallb (fun op => negb (is_add op)) ops = true ->
  snd (spec_ops (fc_spec make) s ops) = map empty_result ops.
Proof.
  induction ops as [|op ops IH]; intros s S F; [reflexivity|]. cbn [forallb] in F. apply andb_prop in F as [F1 F].
  cbn [spec_ops map]. destruct op as [t c|t|t a]; [discriminate| |]; cbn [fc_spec].
  - specialize (IH (fun u => if u =? t then None else s u)). destruct (spec_ops _ _ ops) as [s2 os]. cbn [snd] in *. f_equal.
    apply IH; [|exact F]. intros u. destruct (u =? t); auto.
  - rewrite S. specialize (IH s S F). destruct (spec_ops _ _ ops) as [s2 os]. cbn [snd] in *. f_equal. exact IH.
Qed.
Lemma fc_partial make ops : forallb (fun op => negb (is_add op)) ops = true ->
  run_ops (fc_step make) fc_init ops = Ok (fc_init, snd (spec_ops (fc_spec make) (fun _ => None) ops)).
Proof. intros F. rewrite fc_exact, spec_empty; auto. Qed.
Lemma fc_false : exists make ops, forall s, run_ops (fc_step make) fc_init ops <> Ok (s, snd (spec_ops (fc_spec make) (fun _ => None) ops)).
Proof.
  exists (fun c a => Some (c + a)), [FAdd 1 10; FCreate 1 5]. intros s E. rewrite fc_exact in E. discriminate E.
Qed.
