(** Proofs about the parts of paths on Windows. *)
From Coq Require Import ZArith List Bool Lia.
From Verif Require Import GoBase GoStrings PathModel PathSpec PathProofs PathPartSpec PathPartModel PathPartProofs WinModel WinSpec WinProofs WinMore WinDir WrelModel WrelSpec WrelProofs WrelMore WpartModel WpartSpec.
Import ListNotations.
Open Scope Z_scope.

Lemma win_ext_slashed r : forall acc, win_ext_loop r acc = ext_loop (slashed r) acc.
Proof.
  induction r as [|c r IH]; intros acc; [reflexivity|]. cbn [win_ext_loop slashed map ext_loop]. unfold is_sep. destruct (Z.eq_dec c 92) as [->|N]; [reflexivity|].
  rewrite (proj2 (Z.eqb_neq c 92) N), orb_false_r. destruct (c =? 47), (c =? 46); try reflexivity. apply IH.
Qed.
Lemma win_ext_exact s f e : last_part s f -> (win_ext s = e <-> ext_spec_of f e).
Proof.
  intros [F L]. unfold win_ext. rewrite win_ext_slashed. unfold slashed. rewrite map_rev. fold (slashed s). change (ext_of (slashed s) = e <-> ext_spec_of f e).
  assert (I : slashed f = f). { clear L. induction F as [|c f H F IH]; [reflexivity|]. cbn [slashed map]. destruct (Z.eq_dec c 92) as [->|]; [exfalso; apply H; now right|]. f_equal. exact IH. }
  apply ext_exact. split.
  - intros K. apply (proj1 (Forall_forall _ _) F 47 K). now left.
  - destruct L as [->|(d & c & Hc & ->)]; [now left|]. right. exists (slashed d). unfold slashed at 1. rewrite map_app. cbn [map]. fold (slashed d) (slashed f). rewrite I.
    destruct Hc as [-> | ->]; reflexivity.
Qed.
Lemma share_ext v : share v -> ~ In 92 v -> exists a w, v = a ++ w /\ word w /\ last_part v w /\ ext_spec_of w (win_ext v) /\ win_base v = [92].
Proof.
  intros S N. assert (B : win_base v = [92]) by (apply base_root; right; auto). destruct S as (a & b & h & d & w & Ha & Hb & Hh & Hd & Hw & ->).
  exists (a :: b :: h ++ [d]), w. split; [cbn [app]; now rewrite <- app_assoc|]. split; [exact Hw|].
  assert (L : last_part (a :: b :: h ++ d :: w) w) by (split; [apply Hw|right; now exists (a :: b :: h), d]).
  split; [exact L|]. split; [exact (proj1 (win_ext_exact _ _ _ L) eq_refl)|exact B].
Qed.
Lemma cut_ne s q : cut_list s q <> [].
Proof. destruct s as [|c s]; [discriminate|]. cbn [cut_list]. destruct ((c =? 59) && negb q); [discriminate|]. now destruct (cut_list s _). Qed.
Definition glue (x : list Z) (l : list (list Z)) : list (list Z) := match l with h :: r => (x ++ h) :: r | [] => [x] end.
Lemma cut_inside q : forall s, ~ In 34 q -> cut_list (q ++ s) true = glue q (cut_list s true).
Proof.
  induction q as [|c q IH]; intros s N; [cbn [app glue]; destruct (cut_list s true) eqn:E; [now apply cut_ne in E|reflexivity]|].
  cbn [app cut_list]. rewrite andb_false_r. destruct (Z.eqb_spec c 34) as [->|]; [exfalso; apply N; now left|]. rewrite IH by (intros K; apply N; now right).
  destruct (cut_list s true) eqn:E; [now apply cut_ne in E|reflexivity].
Qed.
Lemma cut_entry s v : entry s v -> unquote s = v /\ forall t, cut_list (s ++ t) false = glue s (cut_list t false).
Proof.
  induction 1 as [|c s v N1 N2 E [IH1 IH2]|q s v Nq E [IH1 IH2]].
  - split; [reflexivity|]. intros t. cbn [app glue]. destruct (cut_list t false) eqn:E; [now apply cut_ne in E|reflexivity].
  - split.
    + cbn [unquote filter]. rewrite (proj2 (Z.eqb_neq c 34) N2). cbn [negb]. f_equal. exact IH1.
    + intros t. cbn [app cut_list]. rewrite (proj2 (Z.eqb_neq c 59) N1), (proj2 (Z.eqb_neq c 34) N2). cbn [andb]. rewrite IH2.
      destruct (cut_list t false) eqn:K; [now apply cut_ne in K|reflexivity].
  - split.
    + cbn [unquote filter Z.eqb Pos.eqb negb]. rewrite filter_app. cbn [filter Z.eqb Pos.eqb negb]. f_equal; [|exact IH1].
      clear -Nq. induction q as [|c q IH]; [reflexivity|]. cbn [filter]. destruct (Z.eqb_spec c 34) as [->|]; [exfalso; apply Nq; now left|]. cbn [negb]. f_equal. apply IH. intros K. apply Nq. now right.
    + intros t. replace ((34 :: q ++ 34 :: s) ++ t) with (34 :: q ++ 34 :: s ++ t) by (cbn [app]; now rewrite <- app_assoc). cbn [cut_list Z.eqb Pos.eqb andb negb]. rewrite cut_inside by exact Nq. cbn [cut_list Z.eqb Pos.eqb andb negb]. rewrite IH2.
      destruct (cut_list t false) eqn:K; [now apply cut_ne in K|]. cbn [glue app]. now rewrite <- app_assoc.
Qed.
Lemma cut_listing s l : listing s l -> map unquote (cut_list s false) = l.
Proof.
  induction 1 as [s v [E|(s' & v' & q & E & Nq & -> & ->)]|s v t l E L IH].
  - destruct (cut_entry _ _ E) as [U C]. specialize (C []). rewrite app_nil_r in C. rewrite C. cbn [cut_list glue map]. now rewrite app_nil_r, U.
  - destruct (cut_entry _ _ E) as [U C]. rewrite C. cbn [cut_list Z.eqb Pos.eqb andb negb]. pose proof (cut_inside q [] Nq) as K. rewrite app_nil_r in K. rewrite K. cbn [cut_list glue map]. rewrite app_nil_r.
    unfold unquote in *. rewrite filter_app, U. cbn [filter Z.eqb Pos.eqb negb]. do 2 f_equal.
    clear -Nq. induction q as [|c q IH]; [reflexivity|]. cbn [filter]. destruct (Z.eqb_spec c 34) as [->|]; [exfalso; apply Nq; now left|]. cbn [negb]. f_equal. apply IH. intros K. apply Nq. now right.
  - destruct (cut_entry _ _ E) as [U C]. rewrite C. cbn [cut_list Z.eqb Pos.eqb andb negb glue map]. now rewrite app_nil_r, U, IH.
Qed.
Lemma listing_char c t l : c <> 59 -> c <> 34 -> listing t l -> exists l', listing (c :: t) l'.
Proof.
  intros N1 N2 [s v [E|(s' & v' & q & E & Nq & -> & ->)]|s v t' l' E L].
  - eexists. apply ls_last. left. now apply en_char; [| |exact E].
  - eexists. apply ls_last. right. exists (c :: s'), (c :: v'), q. split; [now apply en_char|]. auto.
  - eexists. apply (ls_more (c :: s)); [now apply en_char; [| |exact E]|exact L].
Qed.
Lemma listing_quoted q t l : ~ In 34 q -> listing t l -> exists l', listing (34 :: q ++ 34 :: t) l'.
Proof.
  intros N [s v [E|(s' & v' & r & E & Nq & -> & ->)]|s v t' l' E L].
  - eexists. apply ls_last. left. apply en_quoted; [exact N|exact E].
  - eexists. apply ls_last. right. exists (34 :: q ++ 34 :: s'), (q ++ v'), r. split; [now apply en_quoted|]. split; [exact Nq|]. split; [|reflexivity]. cbn [app]. now rewrite <- app_assoc.
  - eexists. replace (34 :: q ++ 34 :: s ++ 59 :: t') with ((34 :: q ++ 34 :: s) ++ 59 :: t') by (cbn [app]; now rewrite <- app_assoc).
    apply ls_more; [apply en_quoted; [exact N|exact E]|exact L].
Qed.
Lemma quote_or q : ~ In 34 q \/ exists a b, q = a ++ 34 :: b /\ ~ In 34 a.
Proof.
  induction q as [|c q IH]; [left; intros []|]. destruct (Z.eq_dec c 34) as [->|N]; [right; exists [], q; split; [reflexivity|intros []]|].
  destruct IH as [IH|(a & b & -> & IH)]; [left; intros [K|K]; auto|]. right. exists (c :: a), b. split; [reflexivity|]. intros [K|K]; auto.
Qed.
Lemma listing_all : forall n s, (length s <= n)%nat -> exists l, listing s l.
Proof.
  induction n as [|n IH]; intros [|c s] Hn; try (exists [[]]; apply ls_last; left; constructor); [cbn in Hn; lia|]. cbn [length] in Hn.
  destruct (Z.eq_dec c 59) as [->|N1].
  - destruct (IH s ltac:(lia)) as (l & L). exists ([] :: l). exact (ls_more [] [] s l en_end L).
  - destruct (Z.eq_dec c 34) as [->|N2].
    + destruct (quote_or s) as [N|(a & b & -> & N)].
      * exists [s]. apply ls_last. right. exists [], [], s. repeat split; auto. constructor.
      * destruct (IH b) as (l & L); [rewrite app_length in Hn; cbn in Hn; lia|]. exact (listing_quoted a b l N L).
    + destruct (IH s ltac:(lia)) as (l & L). exact (listing_char c s l N1 N2 L).
Qed.
Lemma split_list_win s l : win_split_list s = l <-> (s = [] /\ l = []) \/ (s <> [] /\ listing s l).
Proof.
  destruct s as [|c s]; [cbn; split; [auto|intros [[_ E]|[E _]]; [auto|contradiction]]|]. cbn [win_split_list]. split.
  - intros <-. right. split; [discriminate|]. destruct (listing_all _ (c :: s) (le_n _)) as (l & L). now rewrite (cut_listing _ _ L).
  - intros [[E _]|[_ L]]; [discriminate|]. now apply cut_listing.
Qed.
Lemma split_quoted l : Forall (fun x => ~ In 34 x) l -> win_split_list (quoted_list l) = l.
Proof.
  intros F. apply split_list_win. destruct l as [|x l]; [left; auto|]. right. split; [destruct l; discriminate|].
  assert (E : forall x, ~ In 34 x -> entry (34 :: x ++ [34]) x) by (intros y N; pose proof (en_quoted y [] [] N en_end) as K; now rewrite app_nil_r in K).
  revert x F. induction l as [|y l IH]; intros x F.
  - apply ls_last. left. apply E. now inversion F.
  - inversion F as [|? ? Nx F']; subst. change (quoted_list (x :: y :: l)) with (34 :: x ++ 34 :: 59 :: quoted_list (y :: l)).
    replace (34 :: x ++ 34 :: 59 :: quoted_list (y :: l)) with ((34 :: x ++ [34]) ++ 59 :: quoted_list (y :: l)) by (cbn [app]; now rewrite <- app_assoc).
    apply ls_more; auto.
Qed.

Lemma has_prefix_iff lower me p : win_has_prefix lower me p = true <-> exists r, me = win_path p ++ r \/ lower me = lower (win_path p) ++ r.
Proof.
  unfold win_has_prefix. destruct (strip_prefix (win_path p) me) as [r|] eqn:E.
  - apply strip_prefix_spec in E. split; eauto.
  - destruct (strip_prefix (lower (win_path p)) (lower me)) as [r|] eqn:E'.
    + apply strip_prefix_spec in E'. split; eauto.
    + split; [discriminate|]. intros (r & [H|H]); apply strip_prefix_spec in H; congruence.
Qed.
Lemma lower_slashes lower v cs ds : lowers lower -> lower (v ++ concat (map (cons 47) cs) ++ concat (map (cons 47) ds)) = lower v ++ concat (map (fun x => 47 :: lower x) cs) ++ concat (map (fun x => 47 :: lower x) ds).
Proof.
  intros L. revert v. induction cs as [|x cs IH]; intros v; cbn [map concat app].
  - revert v. induction ds as [|y ds IH]; intros v; cbn [map concat app]; [now rewrite !app_nil_r|]. rewrite (lowers_slash _ L). f_equal. f_equal. apply (IH y).
  - rewrite (lowers_slash _ L). f_equal. f_equal. rewrite <- !app_assoc. apply (IH x).
Qed.
Lemma prefix_win lower p v cs v' cs' ds : lowers lower -> win_path p = v ++ abs_path cs -> lower v' = lower v -> Forall2 (fun x y => lower y = lower x) cs cs' ->
  win_has_prefix lower (v' ++ abs_path (cs' ++ ds)) p = true.
Proof.
  intros L E V F. apply has_prefix_iff. rewrite E. destruct F as [|x y cs cs' S F].
  - exists (lower (tl (abs_path ds))). right. cbn [app]. rewrite abs_path_join. cbn [tl]. change (abs_path []) with [47]. rewrite !(lowers_slash _ L), (lowers_nil _ L), V, <- app_assoc. reflexivity.
  - exists (concat (map (fun x => 47 :: lower x) ds)). right.
    assert (K : forall l, l <> [] -> abs_path l = concat (map (cons 47) l)) by (intros [|z l] H; [contradiction|reflexivity]).
    rewrite !K by discriminate. rewrite map_app, concat_app, lower_slashes by exact L. pose proof (lower_slashes lower v (x :: cs) [] L) as Q. cbn [map concat] in Q. rewrite !app_nil_r in Q. cbn [map concat]. rewrite Q, V, <- !app_assoc. f_equal.
    rewrite S. cbn [app]. do 3 f_equal. clear -F. induction F as [|a b l l' H F IH]; cbn [map concat]; [reflexivity|]. now rewrite H, IH.
Qed.
Lemma ascii_lowers : lowers ascii_lower.
Proof. split; [reflexivity|]. intros a b. unfold ascii_lower. now rewrite map_app. Qed.
Lemma prefix_win_false : exists me p v cs ds, drive v /\ me = v ++ abs_path ds /\ win_path p = v ++ abs_path cs /\ win_path me = me /\ win_has_prefix ascii_lower me p = true /\
  forall r, leads [] (slashed (abs_path ds)) <> r ++ leads [] (slashed (abs_path cs)).
Proof.
  exists [99; 58; 47; 97; 98], [99; 58; 92; 97], [99; 58], [[97]], [[97; 98]]. split; [exists 99; split; [lia|reflexivity]|]. do 4 (split; [reflexivity|]).
  intros r E. change ([[97; 98]] = r ++ [[97]]) in E. destruct r as [|x [|y r]]; discriminate.
Qed.
Lemma rel_work same wd v r x : volumed wd v r -> rooted r -> win_rel same wd x = win_rel same (win_path wd) x.
Proof.
  intros V R. destruct (rooted_clean r R) as (ds & Fd & Ed & Ld). destruct (volumed_abs wd v r ds V R Ed) as (C1 & V1 & P & Vp).
  assert (Rd : rooted (abs_path ds)) by (exists 47; eexists; split; [apply abs_path_join|now left]).
  assert (Ed' : clean (slashed (abs_path ds)) = abs_path ds) by (rewrite slashed_abs by auto; rewrite <- Ed; apply clean_fix).
  destruct (volumed_abs (win_path wd) (slashed v) (abs_path ds) ds Vp Rd Ed') as (C2 & V2 & _ & _).
  rewrite from_slashed in V2. rewrite from_app, from_slashed, <- from_app in C2. unfold win_rel. now rewrite C1, C2, V1, V2.
Qed.
Lemma relate_work_win same wd v r p v' r' cur cwd w w' d f : folds same -> volumed wd v r -> rooted r -> volumed p v' r' -> rooted r' -> ~ In 58 r' ->
  same (backslashed v) (backslashed v') = true -> stands cur cwd wd w d -> stands cur cwd p w' f ->
  no_volume (win_relate_work same wd p) /\ ~ rooted (win_relate_work same wd p) /\ alike same (leads d (slashed (win_relate_work same wd p))) f.
Proof.
  intros Fo V R Vp Rp N58 Sv Sg Sp. unfold win_relate_work. rewrite (rel_work same wd v r) by auto. change (match win_rel same (win_path wd) (win_path p) with Some s => win_path s | None => win_path [] end) with (win_relate same (win_path p) wd).
  destruct (rooted_clean r' Rp) as (cs & Fc & Ec & Lc). destruct (volumed_abs p v' r' cs Vp Rp Ec) as (_ & _ & _ & Vp').
  apply (relate_stands same (win_path p) wd (slashed v') v (abs_path cs) r cur cwd w' w d f); auto.
  - exists 47; eexists; split; [apply abs_path_join|now left].
  - pose proof (no_colon_names cs r' Ec N58) as Nc. intros K. destruct cs as [|y l]; [destruct K as [K|[]]; discriminate|]. unfold abs_path in K. apply in_concat in K as (x & I & K).
    apply in_map_iff in I as (z & <- & I). destruct K as [K|K]; [discriminate|]. exact (proj1 (Forall_forall _ _) Nc z I K).
  - rewrite (back_from (slashed v')), from_slashed, <- back_from. exact Sv.
  - apply stands_iff; [intros NV; exfalso; exact (NV _ _ Vp)|exact Sp].
Qed.
Lemma relate_work_else same wd v r p v' r' : volumed wd v r -> rooted r -> volumed p v' r' -> rooted r' -> same (backslashed v) (backslashed v') = false ->
  win_relate_work same wd p = [46].
Proof.
  intros V R Vp Rp Sv. unfold win_relate_work. rewrite (rel_work same wd v r) by auto. change (win_relate same (win_path p) wd = [46]).
  destruct (rooted_clean r' Rp) as (cs & Fc & Ec & Lc). destruct (volumed_abs p v' r' cs Vp Rp Ec) as (_ & _ & _ & Vp').
  apply (relate_win_else same (win_path p) wd (slashed v') v (abs_path cs) r); auto.
  - exists 47; eexists; split; [apply abs_path_join|now left].
  - rewrite (back_from (slashed v')), from_slashed, <- back_from. exact Sv.
Qed.
Lemma relate_work_false : exists wd p v r v' r', volumed wd v r /\ rooted r /\ volumed p v' r' /\ rooted r' /\ ~ In 58 r' /\
  ~ alike ascii_fold (leads (leads [] (slashed r)) (slashed (win_relate_work ascii_fold wd p))) (leads [] (slashed r')).
Proof.
  exists [99; 58; 92; 97], [100; 58; 47; 103; 47; 104], [99; 58], [92; 97], [100; 58], [47; 103; 47; 104].
  split; [vdrive|]. split; [exists 92; eexists; split; [reflexivity|now right]|]. split; [vdrive|]. split; [exists 47; eexists; split; [reflexivity|now left]|].
  split; [intros K; repeat (destruct K as [K|K]; [discriminate|]); destruct K|].
  intros A. vm_compute in A. inversion A as [|? ? ? ? ? B]. inversion B.
Qed.
