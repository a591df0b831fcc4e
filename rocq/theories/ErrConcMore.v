From Coq Require Import String.
From Coq Require Import ZArith List Bool Lia.
From Verif Require Import GoBase GoLists QueueProofs RingProofs GoStrings MathModel MathSpec MathProofs ConcBase RegModel RegSpec RegProofs SpinProofs ErrConcModel ErrConcSpec ErrConcProofs.
Import ListNotations.
Open Scope Z_scope.

Local Notation unknown := (bytes_of "unknown error").

Lemma prefix_cases {X} (a b c d : list X) : a ++ b = c ++ d -> (exists p, c = a ++ p /\ b = p ++ d) \/ (exists p, a = c ++ p /\ d = p ++ b).
Proof.
  revert c. induction a as [|x a IH]; intros c E.
  - left. exists c. auto.
  - destruct c as [|y c].
    + right. exists (x :: a). auto.
    + injection E as -> E. destruct (IH c E) as [(p & -> & ->)|(p & -> & ->)]; [left|right]; exists p; auto.
Qed.
Lemma in_call_start t op op' l0 l l0' l' : l0 ++ l = l0' ++ l' -> in_call t op l0 l -> in_call t op' l0' l' -> l0 = l0' /\ l = l'.
Proof.
  intros E (A & B & C) (A' & B' & C').
  assert (Z: forall (p : list (nat * er_op)), p = [] \/ p <> []) by (intros []; [left; reflexivity|right; discriminate]).
  destruct (prefix_cases _ _ _ _ E) as [(p & -> & ->)|(p & -> & ->)]; destruct (Z p) as [->|N].
  - rewrite app_nil_r. auto.
  - elim (C p l' eq_refl N). exact A'.
  - rewrite app_nil_r. auto.
  - elim (C' p l eq_refl N). exact A.
Qed.

Lemma returns_pc t op r l0 l : returns t op r l0 l -> ec_pcs (ec_at (l0 ++ l)) t = XRet op r.
Proof.
  intros [_ R]. specialize (R EShowAll). unfold ec_step in R.
  destruct (ec_pcs (ec_at (l0 ++ l)) t) as [|[]|buf id|buf id|o x|]; try destruct (er_step _ _) as [[]| |];
  try destruct (_ <=? _); try destruct (err_string _ _); cbn [snd] in R; try discriminate. injection R as -> ->. reflexivity.
Qed.
Lemma names_grow l0 l : sched_ok (l0 ++ l) -> exists xs, names_at (l0 ++ l) = names_at l0 ++ xs.
Proof.
  induction l as [|[t op] l IH] using rev_ind; intros F.
  - exists []. rewrite !app_nil_r. reflexivity.
  - rewrite app_assoc in *. apply Forall_app in F as [F _]. destruct (IH F) as [xs E].
    destruct (step_names _ t op (einv_all _ F)) as [_ [ys N]]. exists (xs ++ ys). rewrite app_assoc, <- E, <- N.
    unfold names_at at 1. rewrite ec_at_snoc. reflexivity.
Qed.
Lemma show_all_exact l0 l t r : sched_ok (l0 ++ l) -> returns t EShowAll r l0 l ->
  exists l1 l2 l3, l = l1 ++ l2 ++ l3 /\
    r = EStr (report (length (names_at (l0 ++ l1))) (names_at (l0 ++ l1 ++ l2))) /\
    exists more, names_at (l0 ++ l1 ++ l2) = names_at (l0 ++ l1) ++ more.
Proof.
  intros F R. destruct (einv_all _ F) as [_ T]. specialize (T t). unfold tinv in T. rewrite (returns_pc _ _ _ _ _ R) in T.
  destruct T as (k0 & l1 & l2 & l3 & EQ & I & E). destruct (in_call_start _ _ _ _ _ _ _ EQ (proj1 R) I) as [<- L].
  exists l1, l2, l3. split; [exact L|]. split; [exact E|]. rewrite app_assoc. apply names_grow.
  rewrite L in F. rewrite !app_assoc in F. apply Forall_app in F as [F _]. exact F.
Qed.
Lemma names_head sched : sched_ok sched -> exists a, names_at sched = unknown :: a.
Proof.
  intros F. destruct (einv_all _ F) as [[a ER] _]. exists a. unfold names_at. apply (good_cur _ _ ER).
Qed.
Lemma show_all_quiet l0 l t r : sched_ok (l0 ++ l) -> returns t EShowAll r l0 l -> names_at (l0 ++ l) = names_at l0 ->
  r = snd (er_spec (tl (names_at l0)) EShowAll).
Proof.
  intros F R Q. destruct (show_all_exact _ _ _ _ F R) as (l1 & l2 & l3 & L & E & _).
  assert (F12: sched_ok (l0 ++ l1 ++ l2)) by (rewrite L in F; rewrite !app_assoc in *; apply Forall_app in F as [F _]; exact F).
  assert (F1: sched_ok (l0 ++ l1)) by (rewrite app_assoc in F12; apply Forall_app in F12 as [F12 _]; exact F12).
  assert (F0: sched_ok l0) by (apply Forall_app in F1 as [F1 _]; exact F1).
  destruct (names_grow l0 l1 F1) as [x1 N1]. destruct (names_grow (l0 ++ l1) l2) as [x2 N2]; [rewrite <- app_assoc; exact F12|].
  destruct (names_grow (l0 ++ l1 ++ l2) l3) as [x3 N3]; [rewrite <- !app_assoc; rewrite L in F; exact F|].
  rewrite <- app_assoc in N2. rewrite <- !app_assoc in N3. rewrite <- L in N3.
  rewrite Q, N2, N1 in N3. rewrite <- !app_assoc in N3.
  assert (X: x1 ++ x2 ++ x3 = []) by (apply (app_inv_head (names_at l0)); rewrite app_nil_r; symmetry; exact N3).
  apply app_eq_nil in X as [-> X]. apply app_eq_nil in X as [-> _]. rewrite !app_nil_r in *.
  rewrite E, N2, N1. destruct (names_head l0 F0) as [a ->]. cbn [tl er_spec snd]. unfold report. do 3 f_equal.
  unfold zlen. cbn [length]. do 2 f_equal. lia.
Qed.

(** A report with a wrong count. *)
Lemma digits_no_nl v : 0 <= v -> ~ In 10 (fmt_d v).
Proof.
  intros V I. destruct (fmt_d_spec v V) as (_ & D & _). rewrite Forall_forall in D. specialize (D 10 I). unfold is_digit, chr_0 in D. lia.
Qed.
Lemma split_nl (a b c d : list Z) : ~ In 10 a -> ~ In 10 c -> a ++ 10 :: b = c ++ 10 :: d -> a = c.
Proof.
  revert c. induction a as [|x a IH]; intros [|y c] A C E; cbn in E.
  - reflexivity.
  - injection E as <- _. elim C. left. reflexivity.
  - injection E as -> _. elim A. left. reflexivity.
  - injection E as -> E. f_equal. apply IH; [intro; apply A; right; assumption|intro; apply C; right; assumption|exact E].
Qed.
Lemma wrong_count name a : snd (er_spec a EShowAll) <> EStr (report 1 [unknown; name]).
Proof.
  cbn [er_spec snd]. intros E.
  assert (H1: forall x y, EStr x = EStr y -> x = y) by (intros; congruence).
  assert (H2: forall (x : Z) l m, x :: l = x :: m -> l = m) by (intros; congruence).
  apply H1 in E. unfold report in E. apply app_inv_head in E.
  change (err_lines 1001 (unknown :: a)) with (10 :: (err_line 1001 unknown ++ err_lines 1002 a)) in E.
  change (err_lines 1001 [unknown; name]) with (10 :: (err_line 1001 unknown ++ err_lines 1002 [name])) in E.
  pose proof (zlen_nonneg a) as NA.
  pose proof (split_nl _ _ _ _ (digits_no_nl (zlen a + 1) ltac:(lia)) (digits_no_nl (Z.of_nat 1) ltac:(lia)) E) as D.
  destruct (fmt_d_spec (zlen a + 1) ltac:(lia)) as (_ & _ & V & _). destruct (fmt_d_spec (Z.of_nat 1) ltac:(lia)) as (_ & _ & V1 & _).
  rewrite D, V1 in V. destruct a as [|x a]; [|unfold zlen in V; cbn [length] in V; lia].
  change (zlen (@nil (list Z)) + 1) with 1 in E. change (Z.of_nat 1) with 1 in E. apply app_inv_head in E. apply H2 in E.
  apply app_inv_head in E. discriminate E.
Qed.
Definition race : list (nat * er_op) :=
  [(0%nat, EShowAll); (0%nat, EShowAll); (1%nat, EReg [97]); (1%nat, EReg [97]); (1%nat, EReg [97]);
   (0%nat, EShowAll); (0%nat, EShowAll); (0%nat, EShowAll); (0%nat, EShowAll); (0%nat, EShowAll)].
Lemma prefixes_race p q : race = p ++ q -> p = firstn (length p) race.
Proof. intros E. rewrite E, firstn_app, Nat.sub_diag, firstn_all, firstn_O, app_nil_r. reflexivity. Qed.
Lemma race_in_call : in_call 0 EShowAll [] race.
Proof.
  split; [reflexivity|]. split; [eexists; reflexivity|]. intros p q E NE. rewrite (prefixes_race p q E).
  assert (L: (length p <= 10)%nat) by (apply (f_equal (@length _)) in E; rewrite app_length in E; change (length race) with 10%nat in E; lia).
  destruct (length p) as [|n] eqn:LP; [destruct p; [congruence|discriminate]|].
  do 10 (destruct n as [|n]; [vm_compute; discriminate|]). lia.
Qed.
Lemma show_all_false : exists l0 l t r, sched_ok (l0 ++ l) /\ returns t EShowAll r l0 l /\
  r = EStr (report 1 [unknown; [97]]) /\ forall a, snd (er_spec a EShowAll) <> r.
Proof.
  exists [], race, 0%nat, (EStr (report 1 [unknown; [97]])). split; [repeat constructor|]. split.
  - split; [exact race_in_call|]. intros x. cbn [app].
    assert (P: ec_pcs (ec_at race) 0 = XRet EShowAll (EStr (report 1 [unknown; [97]]))) by (vm_compute; reflexivity).
    unfold ec_step. rewrite P. reflexivity.
  - split; [reflexivity|]. intros a. apply wrong_count.
Qed.

(** StdErr. *)
Lemma sprintf0_plain other msg : ~ In 37 msg -> sprintf0 other msg = msg.
Proof.
  induction msg as [|c msg IH]; intros N; [reflexivity|]. cbn [sprintf0].
  destruct (Z.eqb_spec c 37) as [->|]; [elim N; left; reflexivity|]. f_equal. apply IH. intro I. apply N. right. exact I.
Qed.
Lemma std_err_ok other ops s os msg : Forall er_ok ops -> run_ops er_step (fst err_start) ops = Ok (s, os) -> ~ In 37 msg ->
  std_err_text other s msg = Ok (bytes_of "error#1001 (unknown error): " ++ msg).
Proof.
  intros F E N. destruct (er_run ops F _ _ er_rel_start) as (s' & E' & R). rewrite E in E'. injection E' as <- _.
  unfold std_err_text. rewrite sprintf0_plain by exact N. rewrite err_start_val. cbn [snd].
  destruct (er_step_sim s _ (EText 1001 msg) ltac:(cbn; lia) R) as (s2 & E2 & _). cbn [er_step] in E2.
  destruct (err_text s 1001 msg) as [t| |]; cbn [bind] in E2; try discriminate. injection E2 as _ ->. reflexivity.
Qed.
Lemma std_err_false : forall other, exists msg, std_err_text other (fst err_start) msg <> Ok (bytes_of "error#1001 (unknown error): " ++ msg).
Proof. intros other. exists [37; 37]. vm_compute. discriminate. Qed.
