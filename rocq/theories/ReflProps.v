(** C226 to C228: types of interface values, and numbers for truth values. *)
From Coq Require Import ZArith List Bool.
From Verif Require Import GoBase ReflSpec ReflProofs.
From Verif Require Import ReflModel.
Import ListNotations.
Open Scope Z_scope.

(** C226: New makes a variable of the type of the sample with the zero value, changes no other, and returns a pointer to it.
    Missing: that what it returns has the type of the sample (refuted). *)
Theorem C226_new_partial : forall mem addr sample t, has_type sample t -> exists mem' p, refl_new mem addr sample = Ok (p, mem') /\ p = Some (Pointer t, addr) /\
  mem' addr = Some (t, 0) /\ (forall a, a <> addr -> mem' a = mem a) /\ is_same_type (mem' addr) sample = true.
Proof. exact new_spec. Qed.
(** C226: what New returns never has the type of the sample. *)
Theorem C226_new_never : forall mem addr sample p mem', refl_new mem addr sample = Ok (p, mem') -> is_same_type p sample = false.
Proof. exact new_never. Qed.
Theorem C226_new_refuted : exists mem addr sample p mem', sample <> None /\ refl_new mem addr sample = Ok (p, mem') /\ is_same_type p sample = false.
Proof. exact (ex_intro _ (fun _ => None) (ex_intro _ 8 (ex_intro _ (Some (ex_my_int, 5)) (ex_intro _ _ (ex_intro _ _
  (conj (fun E : Some (ex_my_int, 5) = None => match E with eq_refl => Logic.I end) (conj eq_refl eq_refl))))))). Qed.
Print Assumptions C226_new_partial.
Print Assumptions C226_new_never.
Print Assumptions C226_new_refuted.
Example C226_ex : exists mem', refl_new (fun _ => None) 8 (Some (Pointer ex_my_int, 3)) = Ok (Some (Pointer (Pointer ex_my_int), 8), mem') /\
  mem' 8 = Some (Pointer ex_my_int, 0) /\ mem' 9 = None.
Proof. eexists. split; [reflexivity|]. split; reflexivity. Qed.

(** C227: IsSameType tells exactly whether the dynamic types are identical, two nil interfaces being of the same type. *)
Theorem C227_same_type : forall l r, is_same_type l r = true <-> (l = None /\ r = None) \/ exists t, has_type l t /\ has_type r t.
Proof. exact same_type_iff. Qed.
(** C227: values of the same type have the same kind, a defined type that of its underlying type. *)
Theorem C227_same_kind : forall l r, is_same_type l r = true -> refl_kind l = refl_kind r.
Proof. exact same_kind. Qed.
Theorem C227_kind : forall x k, refl_kind x = Ok k -> exists t, has_type x t /\ match t with Predeclared k' | Defined _ k' | Literal k' _ => k = k' | Pointer _ => k = KPtr end.
Proof. exact kind_spec. Qed.
Print Assumptions C227_same_type.
Print Assumptions C227_same_kind.
Print Assumptions C227_kind.
Example C227_ex : is_same_type (Some (ex_my_int, 1)) (Some (ex_my_int, 2)) = true /\ is_same_type (Some (ex_my_int, 1)) (Some (Predeclared KInt, 1)) = false /\
  is_same_type None (Some (Predeclared KInt, 0)) = false.
Proof. repeat split. Qed.

(** C228: IsCmpableInnterType holds exactly of the values of predeclared ordered types but uintptr, and of no nil; for nil, New
    and Kind panic. Missing: defined types whose values can be compared with < (refuted). *)
Theorem C228_cmpable_partial : forall x, is_cmpable x = true <-> exists t, has_type x t /\ predeclared t /\ ordered t /\ t <> Predeclared KUintptr.
Proof. exact cmpable_iff. Qed.
Theorem C228_nil : forall mem addr, refl_new mem addr None = Panic /\ refl_kind None = Panic /\ is_cmpable None = false.
Proof. exact nil_panics. Qed.
Theorem C228_cmpable_refuted : exists t x, has_type x t /\ ordered t /\ is_cmpable x = false.
Proof. exact cmpable_false. Qed.
Print Assumptions C228_cmpable_partial.
Print Assumptions C228_nil.
Print Assumptions C228_cmpable_refuted.
Example C228_ex : is_cmpable (Some (Predeclared KString, 7)) = true /\ is_cmpable (Some (Predeclared KBool, 1)) = false /\
  is_cmpable (Some (Predeclared KUintptr, 1)) = false /\ refl_kind (Some (ex_my_int, 5)) = Ok KInt.
Proof. repeat split. Qed.

(** C229: BToI and ItoB are inverse to each other on 0 and 1; every other number but 0 counts as true. *)
Theorem C229_bool_int : forall b i, i_to_b (b_to_i b) = b /\ (b_to_i b = 0 \/ b_to_i b = 1) /\ (i_to_b i = true <-> i <> 0) /\ (i = 0 \/ i = 1 -> b_to_i (i_to_b i) = i).
Proof. exact bool_int. Qed.
Print Assumptions C229_bool_int.
Example C229_ex : b_to_i (i_to_b (-5)) = 1 /\ i_to_b (b_to_i false) = false.
Proof. split; reflexivity. Qed.
