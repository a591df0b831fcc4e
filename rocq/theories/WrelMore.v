(** Relate on Windows, for paths without volume. *)
From Coq Require Import ZArith List Bool Lia.
From Verif Require Import GoBase GoStrings PathModel PathSpec PathProofs WinModel WinSpec WinProofs WinMore WrelModel WrelSpec WrelProofs.
Import ListNotations.
Open Scope Z_scope.

Lemma alike_go same A B x y : folds same -> alike same A B -> same y x = true -> alike same (go A x) (go B y).
Proof.
  intros Fo Al S. destruct (folds_dots _ Fo _ _ S) as [D1 D2]. assert (D0 : x = [] <-> y = []).
  { split; intros ->; apply (folds_nil _ Fo); auto. }
  unfold go. destruct (list_eq_dec Z.eq_dec x []), (list_eq_dec Z.eq_dec y []); try tauto.
  destruct (list_eq_dec Z.eq_dec x [46]), (list_eq_dec Z.eq_dec y [46]); try tauto.
  destruct (list_eq_dec Z.eq_dec x [46; 46]), (list_eq_dec Z.eq_dec y [46; 46]); try tauto; [|constructor; auto].
  destruct Al; [constructor|auto].
Qed.
Lemma alike_fold same : folds same -> forall l l', alike same l l' -> forall A B, alike same A B -> alike same (fold_left go l A) (fold_left go l' B).
Proof. intros Fo l l'. induction 1 as [|x y l l' S F IH]; intros A B Al; cbn [fold_left]; auto. apply IH. now apply alike_go. Qed.
Lemma alike_refl same l : folds same -> alike same l l.
Proof. intros Fo. apply forall2_refl. apply (folds_refl _ Fo). Qed.
Lemma pieces_from s : ~ In 92 s -> pieces (from_slash s) = segments s.
Proof.
  induction s as [|c s IH]; intros N; [reflexivity|]. change (from_slash (c :: s)) with ((if c =? 47 then 92 else c) :: from_slash s). cbn [pieces segments].
  rewrite IH by (intros K; apply N; now right). destruct (segments s) as [|h r] eqn:E; [now apply segments_ne in E|].
  destruct (Z.eqb_spec c 47) as [->|Nc]; [reflexivity|]. destruct (Z.eq_dec c 92) as [->|]; [|reflexivity]. exfalso. apply N. now left.
Qed.
Lemma elements_chars (Q : Z -> Prop) s : Forall Q s -> Forall (Forall Q) (elements s).
Proof. intros F. apply Forall_forall. intros x I. apply filter_In in I as [I _]. exact (proj1 (Forall_forall _ _) (segments_all Q s F) x I). Qed.
Lemma not_in (c : Z) s : ~ In c s <-> Forall (fun b => b <> c) s.
Proof. rewrite Forall_forall. split; [intros N b I ->; auto|intros F I; exact (F c I eq_refl)]. Qed.
Lemma clean_no_colon s : ~ In 58 s -> ~ In 58 (clean (slashed s)).
Proof.
  intros N. apply not_in, clean_all; try discriminate. apply not_in. intros I. unfold slashed in I. apply in_map_iff in I as (d & E & I). destruct (Z.eq_dec d 92); [discriminate|subst; auto].
Qed.
Lemma clean_no_volume s : ~ In 58 s -> no_volume (clean (slashed s)).
Proof.
  intros N v r [E [D|[S _]]].
  - apply (clean_no_colon s N). rewrite E. destruct D as (c & _ & ->). right. now left.
  - destruct S as (a & b & h & d & w & Ha & Hb & _ & _ & _ & ->). cbn [app] in E. pose proof (clean_slashes _ (slashed_no s)) as N9. rewrite E in N9.
    assert (a = 47 /\ b = 47) as [-> ->] by (destruct Ha as [->| ->], Hb as [->| ->]; auto; exfalso; apply N9; cbn; auto).
    destruct (clean_form (slashed s)) as [(_ & cs & F & Ec & _)|(_ & k & cs & F & Ec & _)]; rewrite Ec in E.
    + rewrite abs_path_join in E. injection E as E. destruct cs as [|x cs]; [discriminate|]. pose proof (Forall_inv F) as (H1 & _ & _ & H2). destruct x as [|c x]; [contradiction|].
      destruct cs; cbn [join_slash app] in E; injection E as -> _; apply H2; now left.
    + pose proof (rel_not_rooted k cs F) as R. rewrite E in R. discriminate.
Qed.
Lemma none_clean s : no_volume s -> win_clean s = from_slash (clean (slashed s)) /\ volume_name s = [].
Proof.
  intros N. destruct (no_vol s N) as [Ev Er]. unfold win_clean, volume_name. rewrite Ev, Er. split; [|reflexivity]. destruct s as [|c s]; [|now rewrite to_slash_slashed].
  reflexivity.
Qed.
Lemma relate_none same me root ds : folds same -> ~ In 58 me -> ~ In 58 root -> no_volume me -> no_volume root -> Forall name ds ->
  (rooted me /\ win_path root = abs_path ds) \/ (~ rooted me /\ win_path root = rel_path ds) ->
  let s := win_relate same me root in
  no_volume s /\ ~ rooted s /\ forall p, alike same (leads (leads p (slashed root)) (slashed s)) (leads p (slashed me)).
Proof.
  intros Fo Nm Nr Vm Vr Fd H. pose proof (win_path_none _ Vr) as Pr. set (B := clean (slashed root)) in *. set (T := clean (slashed me)).
  destruct (none_clean me Vm) as [Cm Vnm]. fold T in Cm.
  assert (VB : no_volume B) by now apply clean_no_volume.
  destruct (none_clean B VB) as [CB VnB]. assert (B9 : ~ In 92 B) by (apply clean_slashes, slashed_no). assert (T9 : ~ In 92 T) by (apply clean_slashes, slashed_no).
  rewrite (slashed_id B B9) in CB. assert (FB : clean B = B) by apply clean_fix. rewrite FB in CB.
  assert (RT : is_rooted T = is_rooted (slashed me)) by apply clean_rooted.
  assert (Rm : rooted me <-> is_rooted (slashed me) = true).
  { destruct me as [|c me']; [split; [intros (c & t & E & _); discriminate|discriminate]|]. split.
    - intros (c0 & t & [= <- <-] & Hc). now apply rooted_slashed.
    - cbn [slashed map is_rooted]. intros E. exists c, me'. split; [reflexivity|]. destruct (Z.eq_dec c 92) as [->|]; [now right|]. left. now apply Z.eqb_eq. }
  assert (EB : elements B = ds /\ is_rooted B = is_rooted T).
  { rewrite RT. destruct H as [[R E]|[R E]]; rewrite Pr in E; rewrite E.
    - rewrite elements_abs, is_rooted_abs by auto. split; [reflexivity|]. symmetry. now apply Rm.
    - pose proof (elements_rel 0 ds Fd) as E1. pose proof (rel_not_rooted 0 ds Fd) as E2. cbn [repeat app] in E1, E2. rewrite E1, E2. split; [reflexivity|].
      destruct (is_rooted (slashed me)); [|reflexivity]. exfalso. apply R. now apply Rm. }
  destruct EB as [EB RB].
  assert (LB : forall p, leads p (slashed root) = fold_left go ds (if is_rooted T then [] else p)).
  { intros p. rewrite <- (clean_leads (slashed root) p). change (file_path (slashed root)) with B. now rewrite leads_elements, EB, RB. }
  assert (LT : forall p, leads p (slashed me) = fold_left go (elements T) (if is_rooted T then [] else p)).
  { intros p. rewrite <- (clean_leads (slashed me) p). change (file_path (slashed me)) with T. now rewrite leads_elements. }
  cbv zeta. unfold win_relate, win_rel. rewrite Pr, Cm, CB, Vnm, VnB. cbn [length skipn]. rewrite !to_slash_slashed, !slashed_from, (slashed_id _ B9), (slashed_id _ T9), RB, xorb_nilpotent, (folds_refl _ Fo), EB. cbn [orb negb].
  destruct (same (from_slash T) (from_slash B)) eqn:W.
  - destruct (rel_text []) as (A & C & _); [constructor|]. change (win_path [46]) with (win_path (from_slash (join_slash []))). split; [exact A|]. split; [exact C|].
    intros p. change (slashed (win_path (from_slash (join_slash [])))) with [46]. rewrite LT, LB.
    change (leads (fold_left go ds (if is_rooted T then [] else p)) [46]) with (fold_left go ds (if is_rooted T then [] else p)).
    apply (folds_pieces _ Fo) in W. rewrite !pieces_from in W by auto. rewrite <- EB. unfold elements. rewrite !fold_filter. apply alike_fold; auto; [|now apply alike_refl].
    now apply forall2_flip in W.
  - destruct (wdrop same ds (elements T)) as [b t] eqn:D. apply wdrop_spec in D as (c & c' & Ed & Et & Al).
    assert (Gt : Forall (fun x => x <> [] /\ flat x /\ ~ In 92 x /\ ~ In 58 x) t).
    { pose proof (elements_good T) as G1. pose proof (elements_chars _ T (proj1 (not_in 92 T) T9)) as G2. pose proof (elements_chars _ T (proj1 (not_in 58 T) (clean_no_colon me Nm))) as G3.
      rewrite Et in G1, G2, G3. apply Forall_app in G1 as [_ G1]. apply Forall_app in G2 as [_ G2]. apply Forall_app in G3 as [_ G3].
      rewrite Forall_forall in *. intros x I. destruct (G1 x I) as [A1 A2]. repeat split; auto; apply not_in; auto. }
    assert (Fb : Forall name c /\ Forall name b) by (rewrite Ed in Fd; now apply Forall_app in Fd). destruct Fb as [Fc Fb].
    assert (K : forall k, k = length b -> let s := win_path (from_slash (join_slash (repeat dd k ++ t))) in
      no_volume s /\ ~ rooted s /\ forall p, alike same (leads (leads p (slashed root)) (slashed s)) (leads p (slashed me))).
    { intros k ->. destruct (rel_text (repeat dd (length b) ++ t)) as (A & C & L).
      { apply Forall_app. split; auto. apply Forall_forall. intros x I. apply repeat_spec in I as ->. destruct wname_dd as (H1 & H2 & H3 & H4). auto. }
      cbv zeta. split; [exact A|]. split; [exact C|]. intros p. rewrite L, LT, LB, Ed, Et, !fold_left_app, fold_ups. apply alike_fold; [auto|now apply alike_refl|].
      rewrite (fold_names b) by auto. rewrite skipn_app, rev_length, Nat.sub_diag. rewrite skipn_all2 by (rewrite rev_length; lia). cbn [app skipn]. apply alike_fold; auto. now apply alike_refl. }
    destruct b as [|x b]; [exact (K 0%nat eq_refl)|]. pose proof (Forall_inv Fb) as (_ & _ & Hx & _).
    destruct (str_eqb x [46; 46]) eqn:Ex; [apply str_eqb_eq in Ex; contradiction|]. change [46; 46] with dd. rewrite (map_const dd (x :: b)). now apply K.
Qed.
Lemma rooted_iff s : rooted s <-> is_rooted (slashed s) = true.
Proof.
  destruct s as [|c s]; [split; [intros (c & t & E & _); discriminate|discriminate]|]. split.
  - intros (c0 & t & [= <- <-] & Hc). now apply rooted_slashed.
  - cbn [slashed map is_rooted]. intros E. exists c, s. split; [reflexivity|]. destruct (Z.eq_dec c 92) as [->|]; [now right|]. left. now apply Z.eqb_eq.
Qed.
Lemma relate_no_volume same me root : folds same -> ~ In 58 me -> ~ In 58 root -> no_volume me -> no_volume root ->
  (rooted me /\ rooted root) \/ (~ rooted me /\ ~ rooted root /\ descends root) ->
  let s := win_relate same me root in
  no_volume s /\ ~ rooted s /\ forall p, alike same (leads (leads p (slashed root)) (slashed s)) (leads p (slashed me)).
Proof.
  intros Fo Nm Nr Vm Vr H. pose proof (win_path_none _ Vr) as Pr. destruct (clean_form (slashed root)) as [(R & cs & F & Ec & _)|(R & k & cs & F & Ec & L)].
  - apply (relate_none same me root cs); auto. left. rewrite Pr. split; [|exact Ec]. destruct H as [[H _]|(_ & H & _)]; [exact H|]. exfalso. apply H. now apply rooted_iff.
  - destruct H as [[_ H]|(Hm & _ & ds & D)]; [apply rooted_iff in H; congruence|].
    apply (relate_none same me root cs); auto. right. split; [exact Hm|]. rewrite Pr. change (clean (slashed root) = rel_path cs).
    assert (k = 0%nat) as ->; [|exact Ec].
    pose proof (D []) as D0. rewrite L, skipn_nil, !app_nil_r in D0. subst ds. specialize (D (repeat [] k)). rewrite L in D. apply app_inv_head in D.
    apply (f_equal (@length _)) in D. rewrite skipn_length, repeat_length in D. lia.
Qed.
Lemma relate_up : exists me root, no_volume me /\ ~ In 58 me /\ no_volume root /\ ~ In 58 root /\ ~ rooted me /\ ~ rooted root /\
  win_relate ascii_fold me root = [46] /\ exists p, ~ alike ascii_fold (leads (leads p (slashed root)) (slashed (win_relate ascii_fold me root))) (leads p (slashed me)).
Proof.
  exists [102], [46; 46]. split; [intros v r [E [(c & _ & ->)|[(a & b & h & d & w & _ & _ & _ & _ & _ & ->) _]]]; discriminate|]. split; [intros [E|[]]; discriminate|].
  split; [intros v r [E [(c & _ & ->)|[(a & b & h & d & w & Ha & _ & _ & _ & _ & ->) _]]]; [discriminate|injection E as <- _; destruct Ha; discriminate]|].
  split; [intros [E|[E|[]]]; discriminate|].
  split; [intros (c & t & [= <- <-] & [E|E]); discriminate|]. split; [intros (c & t & [= <- <-] & [E|E]); discriminate|]. split; [reflexivity|].
  exists []. intros A. inversion A.
Qed.
