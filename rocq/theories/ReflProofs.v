From Coq Require Import ZArith List Bool Lia.
From Verif Require Import GoBase ReflModel ReflSpec.
Import ListNotations.
Open Scope Z_scope.

Lemma kind_beq_iff a b : kind_beq a b = true <-> a = b.
Proof. split; [apply internal_kind_dec_bl|apply internal_kind_dec_lb]. Qed.
Lemma gtype_eqb_iff : forall a b, gtype_eqb a b = true <-> a = b.
Proof.
  induction a as [k|n k|t IH|k n]; intros [k'|n' k'|t'|k' n']; cbn [gtype_eqb]; try (split; discriminate).
  - rewrite kind_beq_iff. split; congruence.
  - rewrite andb_true_iff, kind_beq_iff. destruct (list_eq_dec _ _ _); split; intros; try (destruct H; congruence); split; congruence.
  - rewrite IH. split; congruence.
  - rewrite andb_true_iff, kind_beq_iff. destruct (list_eq_dec _ _ _); split; intros; try (destruct H; congruence); split; congruence.
Qed.
Lemma same_type_iff l r : is_same_type l r = true <-> (l = None /\ r = None) \/ exists t, has_type l t /\ has_type r t.
Proof.
  unfold is_same_type, type_of, has_type. destruct l as [[a v]|], r as [[b w]|]; cbn [option_map fst].
  - rewrite gtype_eqb_iff. split.
    + intros ->. right. exists b. split; eauto.
    + intros [[? ?]|(t & [? [= -> ->]] & [? [= -> ->]])]; congruence.
  - split; [discriminate|]. intros [[? _]|(t & _ & [? ?])]; congruence.
  - split; [discriminate|]. intros [[_ ?]|(t & [? ?] & _)]; congruence.
  - split; [now left|reflexivity].
Qed.
Lemma pointer_other t : Pointer t <> t.
Proof. induction t; congruence. Qed.
Lemma new_spec mem addr sample t : has_type sample t -> exists mem' p, refl_new mem addr sample = Ok (p, mem') /\ p = Some (Pointer t, addr) /\
  mem' addr = Some (t, 0) /\ (forall a, a <> addr -> mem' a = mem a) /\ is_same_type (mem' addr) sample = true.
Proof.
  intros [v ->]. cbn. eexists. eexists. split; [reflexivity|]. split; [reflexivity|]. cbn. rewrite Z.eqb_refl. split; [reflexivity|]. split.
  - intros a Ha. apply Z.eqb_neq in Ha. now rewrite Ha.
  - apply same_type_iff. right. exists t. split; eexists; reflexivity.
Qed.
Lemma new_never mem addr sample p mem' : refl_new mem addr sample = Ok (p, mem') -> is_same_type p sample = false.
Proof.
  unfold refl_new, is_same_type. destruct sample as [[t v]|]; cbn; [|discriminate]. intros [= <- <-]. cbn.
  destruct (gtype_eqb (Pointer t) t) eqn:E; [apply gtype_eqb_iff in E; now apply pointer_other in E|]. exact E.
Qed.
Lemma nil_panics mem addr : refl_new mem addr None = Panic /\ refl_kind None = Panic /\ is_cmpable None = false.
Proof. repeat split. Qed.
Lemma same_kind l r : is_same_type l r = true -> refl_kind l = refl_kind r.
Proof. intros E. apply same_type_iff in E as [[-> ->]|(t & [v ->] & [w ->])]; reflexivity. Qed.
Lemma kind_spec x k : refl_kind x = Ok k -> exists t, has_type x t /\ match t with Predeclared k' | Defined _ k' | Literal k' _ => k = k' | Pointer _ => k = KPtr end.
Proof. unfold refl_kind. destruct x as [[t v]|]; cbn; [|discriminate]. intros [= <-]. exists t. split; [now exists v|]. now destruct t. Qed.
Lemma cmpable_iff x : is_cmpable x = true <-> exists t, has_type x t /\ predeclared t /\ ordered t /\ t <> Predeclared KUintptr.
Proof.
  unfold is_cmpable, type_of, has_type, predeclared, ordered. split.
  - destruct x as [[t v]|]; cbn; [|discriminate]. destruct t as [k| | |]; try discriminate. intros E. exists (Predeclared k). split; [eauto|]. split; [eauto|]. cbn.
    destruct k; try discriminate; split; try tauto; discriminate.
  - intros (t & [v ->] & [k ->] & O & N). cbn in *. destruct k; try reflexivity; try (exfalso; intuition discriminate).
Qed.
Lemma cmpable_false : exists t x, has_type x t /\ ordered t /\ is_cmpable x = false.
Proof. exists ex_my_int, (Some (ex_my_int, 5)). split; [now exists 5|]. split; [now left|reflexivity]. Qed.
Lemma bool_int b i : i_to_b (b_to_i b) = b /\ (b_to_i b = 0 \/ b_to_i b = 1) /\ (i_to_b i = true <-> i <> 0) /\ (i = 0 \/ i = 1 -> b_to_i (i_to_b i) = i).
Proof.
  split; [now destruct b|]. split; [destruct b; auto|]. split.
  - unfold i_to_b. destruct (Z.eqb_spec i 0); cbn; split; congruence.
  - intros [->| ->]; reflexivity.
Qed.
