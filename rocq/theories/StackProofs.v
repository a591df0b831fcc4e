(** Lemmas about the stack model. *)
From Coq Require Import ZArith List Bool Lia ZifyBool ZifyNat.
From Verif Require Import GoBase GoLists StackModel StackSpec.
Import ListNotations.
Open Scope Z_scope.

Lemma stack_history ops : forall d,
  exists d', run_ops stack_step d ops = Ok (d', snd (spec_ops lifo_step (rev d) ops)) /\
             rev d' = fst (spec_ops lifo_step (rev d) ops).
Proof.
  intros d.
  destruct (run_ops_refine (fun (d : stack) l => l = rev d) stack_step lifo_step) with
    (ops := ops) (s := d) (a := rev d) as (d' & E & HR); auto.
  2:{ eauto. }
  clear. intros d l op ->.
  assert (Ht : stack_top d = Ok (hd_error (rev d))).
  { destruct d as [|x d _] using rev_ind; [reflexivity|].
    unfold stack_top, stack_size. cbv zeta. unfold zlen. rewrite app_length. cbn [length].
    destruct (Z.ltb_spec 0 (Z.of_nat (length d + 1))); [|lia].
    rewrite (zget_Ok _ _ 0) by (unfold zlen; rewrite app_length; cbn; lia). cbn [bind].
    rewrite app_nth2 by lia.
    replace (Z.to_nat (Z.of_nat (length d + 1) - 1) - length d)%nat with 0%nat by lia.
    rewrite rev_app_distr. reflexivity. }
  destruct op as [n| |v| | | |]; cbn [stack_step lifo_step stack_push fst snd].
  - exists []. split; auto.
  - exists []. split; auto.
  - exists (d ++ [v]). split; auto. rewrite rev_app_distr. reflexivity.
  - unfold stack_pop. rewrite Ht. cbn [bind].
    destruct d as [|x d _] using rev_ind; cbn [rev hd_error].
    + exists []. auto.
    + rewrite rev_app_distr. cbn [app rev hd_error].
      unfold stack_size. rewrite zslice_Ok by (unfold zlen; rewrite app_length; cbn; lia). cbn [bind].
      unfold zlen. rewrite app_length. cbn [length skipn Z.to_nat].
      replace (Z.to_nat (Z.of_nat (length d + 1) - 1 - 0)) with (length d + 0)%nat by lia.
      rewrite firstn_app_2. cbn. rewrite app_nil_r.
      eexists. split; [reflexivity|]. reflexivity.
  - rewrite Ht. cbn. eauto.
  - exists d. split; auto. unfold stack_size, zlen. rewrite rev_length. reflexivity.
  - exists d. split; auto. do 3 f_equal. unfold stack_empty, stack_size, zlen.
    destruct d as [|x d _] using rev_ind; [reflexivity|].
    rewrite rev_app_distr, app_length. cbn. lia.
Qed.
