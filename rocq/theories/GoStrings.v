(** Strings as lists of bytes, and the functions of package strings that the
    repository calls. Nothing here corresponds to lines of /repo. *)
From Coq Require Import String Ascii.
From Coq Require Import ZArith List Bool Lia.
Import ListNotations.
Open Scope Z_scope.

(** The bytes of a string literal (Go language; no /repo lines). *)
Definition bytes_of (s : string) : list Z :=
  map (fun c => Z.of_nat (nat_of_ascii c)) (list_ascii_of_string s).

(** Equality of strings (Go language; no /repo lines). *)
Fixpoint str_eqb (a b : list Z) : bool :=
  match a, b with
  | [], [] => true
  | x :: a, y :: b => (x =? y) && str_eqb a b
  | _, _ => false
  end.

Lemma str_eqb_eq a : forall b, str_eqb a b = true <-> a = b.
Proof.
  induction a as [|x a IH]; intros [|y b]; cbn; try (split; congruence).
  rewrite andb_true_iff, Z.eqb_eq, IH. split; [intros [-> ->]; reflexivity|]. intros H. injection H as -> ->. auto.
Qed.

(** The UTF-8 encodings of the characters that unicode.IsSpace accepts
    (standard library; no /repo lines). *)
Definition spaces : list (list Z) :=
  [[9]; [10]; [11]; [12]; [13]; [32]; [194; 133]; [194; 160]; [225; 154; 128];
   [226; 128; 128]; [226; 128; 129]; [226; 128; 130]; [226; 128; 131]; [226; 128; 132]; [226; 128; 133];
   [226; 128; 134]; [226; 128; 135]; [226; 128; 136]; [226; 128; 137]; [226; 128; 138];
   [226; 128; 168]; [226; 128; 169]; [226; 128; 175]; [226; 129; 159]; [227; 128; 128]].

(** [s] without the prefix [p], if it has it (helper; no /repo lines). *)
Fixpoint strip_prefix (p s : list Z) : option (list Z) :=
  match p, s with
  | [], _ => Some s
  | x :: p, y :: s => if x =? y then strip_prefix p s else None
  | _ :: _, [] => None
  end.
(** The rest after a leading space character (helper; no /repo lines). *)
Fixpoint strip_space (ws : list (list Z)) (s : list Z) : option (list Z) :=
  match ws with
  | [] => None
  | w :: ws => match strip_prefix w s with Some r => Some r | None => strip_space ws s end
  end.
(** Removal of all leading characters from the set [ws] (helper; no /repo
    lines); [fuel] bounds the number of characters. *)
Fixpoint trim_left (ws : list (list Z)) (fuel : nat) (s : list Z) : list Z :=
  match fuel with
  | O => s
  | S f => match strip_space ws s with Some r => trim_left ws f r | None => s end
  end.
(** strings.TrimSpace (standard library; no /repo lines): a space character at
    the end is a suffix of the text that encodes one, since its first byte is no
    continuation byte. *)
Definition trim_space (s : list Z) : list Z :=
  let l := trim_left spaces (length s) s in
  rev (trim_left (map (@rev Z) spaces) (length l) (rev l)).

(** [s] is a concatenation of characters of the set [ws]. *)
Inductive made_of (ws : list (list Z)) : list Z -> Prop :=
| made_nil : made_of ws []
| made_cons w s : In w ws -> made_of ws s -> made_of ws (w ++ s).

Lemma strip_prefix_spec p : forall s r, strip_prefix p s = Some r <-> s = p ++ r.
Proof.
  induction p as [|x p IH]; intros s r; cbn; [split; congruence|].
  destruct s as [|y s]; [split; discriminate|]. destruct (Z.eqb_spec x y) as [->|n].
  - rewrite IH. split; congruence.
  - split; [discriminate|congruence].
Qed.

Lemma strip_space_some ws : forall s r, strip_space ws s = Some r -> exists w, In w ws /\ s = w ++ r.
Proof.
  induction ws as [|w ws IH]; cbn; intros s r H; [discriminate|].
  destruct (strip_prefix w s) eqn:E.
  - injection H as ->. apply strip_prefix_spec in E. eauto.
  - destruct (IH _ _ H) as (w' & H1 & H2). eauto.
Qed.
Lemma strip_space_none ws : forall s, strip_space ws s = None <-> forall w r, In w ws -> s <> w ++ r.
Proof.
  induction ws as [|w ws IH]; cbn; intros s; [split; [tauto|reflexivity]|].
  destruct (strip_prefix w s) eqn:E.
  - apply strip_prefix_spec in E. split; [discriminate|]. intros H. exfalso. eapply H; eauto.
  - rewrite IH. split.
    + intros H w' r [->|Hin]; auto. intros Hs. apply strip_prefix_spec in Hs. congruence.
    + intros H w' r Hin. auto.
Qed.

Lemma trim_left_spec ws : (forall w, In w ws -> w <> []) -> forall fuel s, (length s <= fuel)%nat ->
  exists a, s = a ++ trim_left ws fuel s /\ made_of ws a /\ forall w r, In w ws -> trim_left ws fuel s <> w ++ r.
Proof.
  intros Hw. induction fuel as [|f IH]; intros s L; cbn [trim_left].
  - destruct s; [|cbn in L; lia]. exists []. split; [reflexivity|]. split; [constructor|].
    intros w r Hin E. destruct w; [eapply Hw; eauto|discriminate].
  - destruct (strip_space ws s) as [r|] eqn:E.
    + apply strip_space_some in E. destruct E as (w & Hin & ->).
      assert (length w <> O) by (specialize (Hw w Hin); destruct w; cbn; congruence).
      rewrite app_length in L. destruct (IH r ltac:(lia)) as (a & E & M & N).
      exists (w ++ a). split; [rewrite <- app_assoc; congruence|]. split; [now constructor|auto].
    + exists []. split; [reflexivity|]. split; [constructor|]. now apply strip_space_none.
Qed.

Lemma spaces_nonempty w : In w spaces -> w <> [].
Proof. cbn. intros H. repeat destruct H as [<-|H]; try discriminate. contradiction. Qed.

Lemma made_of_app ws a b : made_of ws a -> made_of ws b -> made_of ws (a ++ b).
Proof. induction 1; cbn; auto. intros. rewrite <- app_assoc. constructor; auto. Qed.
Lemma made_of_rev ws a : made_of (map (@rev Z) ws) a -> made_of ws (rev a).
Proof.
  induction 1 as [|w s Hin M IH]; [constructor|]. rewrite rev_app_distr. apply made_of_app; auto.
  apply in_map_iff in Hin. destruct Hin as (w' & <- & Hin). rewrite rev_involutive.
  rewrite <- (app_nil_r w'). constructor; [auto|constructor].
Qed.

(** TrimSpace removes space characters at both ends, and no space character is
    left at either end. *)
Lemma trim_space_spec s :
  exists a b, s = a ++ trim_space s ++ b /\ made_of spaces a /\ made_of spaces b /\
    (forall w r, In w spaces -> trim_space s <> w ++ r) /\ (forall w r, In w spaces -> trim_space s <> r ++ w).
Proof.
  unfold trim_space.
  destruct (trim_left_spec spaces spaces_nonempty (length s) s (le_n _)) as (a & E & M & N).
  set (l := trim_left spaces (length s) s) in *.
  assert (W : forall w, In w (map (@rev Z) spaces) -> w <> []).
  { intros w H. apply in_map_iff in H. destruct H as (w' & <- & H). apply spaces_nonempty in H.
    intros F. apply H. apply (f_equal (@rev Z)) in F. now rewrite rev_involutive in F. }
  destruct (trim_left_spec _ W (length l) (rev l)) as (b & E2 & M2 & N2).
  { now rewrite rev_length. }
  set (t := trim_left (map (@rev Z) spaces) (length l) (rev l)) in *.
  assert (EL : l = rev t ++ rev b).
  { apply (f_equal (@rev Z)) in E2. rewrite rev_involutive, rev_app_distr in E2. exact E2. }
  exists a, (rev b). split; [rewrite <- EL; exact E|]. split; [exact M|]. split; [now apply made_of_rev|]. split.
  - intros w r Hin F. apply (N w (r ++ rev b) Hin). rewrite EL, F, app_assoc. reflexivity.
  - intros w r Hin F. apply (N2 (rev w) (rev r)); [now apply in_map|].
    apply (f_equal (@rev Z)) in F. rewrite rev_involutive, rev_app_distr in F. exact F.
Qed.

(** The text up to the first occurrence of [c], and what follows it. *)
Fixpoint cut (c : Z) (s : list Z) : list Z * option (list Z) :=
  match s with
  | [] => ([], None)
  | x :: t => if x =? c then ([], Some t) else let (a, b) := cut c t in (x :: a, b)
  end.
Lemma cut_spec c s : match cut c s with
  | (a, None) => a = s /\ ~ In c s
  | (a, Some b) => s = a ++ c :: b /\ ~ In c a
  end.
Proof.
  induction s as [|x t IH]; cbn; [tauto|]. destruct (Z.eqb_spec x c) as [->|n]; [cbn; tauto|].
  destruct (cut c t) as [a [b|]]; destruct IH as [-> H]; split; auto; cbn; intuition congruence.
Qed.
