(** Lemmas about the comparator model. *)
From Coq Require Import ZArith Bool String Lia ZifyBool.
From Verif Require Import GoBase CmpModel.
Open Scope Z_scope.

Lemma cmp_orders :
  (forall a b, cmp_F CMPLesser a b = true <-> a < b) /\
  (forall a b, cmp_F CMPGreater a b = true <-> b < a) /\
  (forall c a b, c <> CMPLesser -> c <> CMPGreater -> cmp_F c a b = false) /\
  (forall c, c = CMPLesser \/ c = CMPGreater ->
     (forall a, cmp_F c a a = false) /\
     (forall x y z, cmp_F c x y = true -> cmp_F c y z = true -> cmp_F c x z = true) /\
     (forall x y, x <> y -> cmp_F c x y = negb (cmp_F c y x))) /\
  (forall a b, cmp_F CMPLesser a b = cmp_F CMPGreater b a).
Proof.
  unfold cmp_F, CMPLesser, CMPGreater, cmp_less, cmp_great.
  repeat split; intros; cbn in *; try lia.
  - destruct (Z.eqb_spec c 0), (Z.eqb_spec c 1); congruence.
  - destruct H as [->| ->]; cbn; lia.
  - destruct H as [->| ->]; cbn in *; lia.
  - destruct H as [->| ->]; cbn in *; lia.
Qed.

Lemma cmp_selection :
  cmp_by_bool false = CMPLesser /\ cmp_by_bool true = CMPGreater /\
  (forall s, cmp_by_name s = Ok CMPLesser <-> s = ""%string \/ s = "Lesser"%string) /\
  (forall s, cmp_by_name s = Ok CMPGreater <-> s = "Greater"%string) /\
  (forall s, cmp_by_name s = Panic <->
     s <> ""%string /\ s <> "Lesser"%string /\ s <> "Greater"%string).
Proof.
  split; [reflexivity|]. split; [reflexivity|].
  unfold cmp_by_name. split; [|split]; intros s;
    destruct (String.eqb_spec s ""), (String.eqb_spec s "Lesser"),
         (String.eqb_spec s "Greater"); subst; cbn; intuition (try discriminate; try congruence).
Qed.

Lemma cmp_names c :
  (c = CMPLesser \/ c = CMPGreater -> cmp_by_name (cmp_string c) = Ok c) /\
  (c <> CMPLesser -> c <> CMPGreater -> cmp_string c = "error cmp value"%string /\ cmp_by_name (cmp_string c) = Panic).
Proof.
  split.
  - intros [->| ->]; reflexivity.
  - intros n m. unfold cmp_string.
    destruct (Z.eqb_spec c CMPLesser); [congruence|]. destruct (Z.eqb_spec c CMPGreater); [congruence|].
    split; reflexivity.
Qed.
