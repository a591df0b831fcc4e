From Coq Require Import ZArith List Bool Lia.
From Verif Require Import GoBase GoStrings PathModel PathSpec PathProofs WinModel WinSpec WinProofs WinMore WorkProofs WorkModel WrelModel WrelSpec.
Import ListNotations.
Open Scope Z_scope.

(** ** Equality up to case *)
Lemma low92 c : low c = 92 <-> c = 92.
Proof. unfold low. destruct (Z.leb_spec 65 c), (Z.leb_spec c 90); cbn [andb]; lia. Qed.
Lemma pieces_ne s : pieces s <> [].
Proof. destruct s as [|c t]; cbn [pieces]; [discriminate|]. induction t as [|d t IH] in c |- *; cbn [pieces]; [destruct (Z.eq_dec c 92); discriminate|].
  specialize (IH d). cbn [pieces] in IH. destruct (pieces t) as [|h r]; [contradiction|]. destruct (Z.eq_dec d 92), (Z.eq_dec c 92); discriminate. Qed.
Lemma ascii_folds : folds ascii_fold.
Proof.
  split.
  - induction x as [|c x IH]; cbn [ascii_fold]; [reflexivity|]. now rewrite Z.eqb_refl, IH.
  - intros [|c x] [H|H]; try reflexivity; discriminate.
  - assert (L : forall c d, (low c =? low d) = true -> (c = 46 <-> d = 46)).
    { intros c d E. apply Z.eqb_eq in E. unfold low in E. destruct (Z.leb_spec 65 c), (Z.leb_spec c 90), (Z.leb_spec 65 d), (Z.leb_spec d 90); cbn [andb] in E; lia. }
    intros [|c [|c2 [|c3 x]]] [|d [|d2 [|d3 y]]] H; cbn [ascii_fold] in H; try discriminate; rewrite ?andb_true_r, ?andb_false_r in H; try discriminate;
      try (split; split; discriminate); try (split; split; reflexivity).
    + pose proof (L _ _ H). split; split; intros [= E]; f_equal; tauto.
    + apply andb_prop in H as [H1 H2]. pose proof (L _ _ H1). pose proof (L _ _ H2). split; split; intros [= E]; try discriminate; repeat f_equal; tauto.
  - induction s as [|c s IH]; intros [|d t] H; try discriminate; [repeat constructor|]. cbn [ascii_fold] in H. apply andb_prop in H as [L H]. apply Z.eqb_eq in L.
    specialize (IH t H). cbn [pieces]. destruct IH as [|h h' r r' Hh Hr]; [constructor|].
    destruct (Z.eq_dec c 92) as [->|N], (Z.eq_dec d 92) as [->|N'].
    + repeat constructor; auto.
    + exfalso. apply N'. apply low92. rewrite <- L. reflexivity.
    + exfalso. apply N. apply low92. rewrite L. reflexivity.
    + constructor; auto. cbn [ascii_fold]. rewrite Hh, L, Z.eqb_refl. reflexivity.
  - induction s as [|c s IH]; intros [|d t] H; try discriminate; [reflexivity|]. cbn [ascii_fold] in H. apply andb_prop in H as [L H]. apply Z.eqb_eq in L.
    specialize (IH t H). assert (c = 58 <-> d = 58); [|cbn [In]; tauto].
    unfold low in L. destruct (Z.leb_spec 65 c), (Z.leb_spec c 90), (Z.leb_spec 65 d), (Z.leb_spec d 90); cbn [andb] in L; lia.
Qed.

(** ** Pieces *)
Lemma pieces_flat x s : ~ In 92 x -> pieces (x ++ s) = match pieces s with h :: r => (x ++ h) :: r | [] => [] end.
Proof.
  induction x as [|c x IH]; intros H; cbn [app pieces]; [destruct (pieces s); reflexivity|]. rewrite IH by (intros K; apply H; now right).
  destruct (pieces s); [reflexivity|]. destruct (Z.eq_dec c 92); [|reflexivity]. exfalso. apply H. now left.
Qed.
Lemma pieces_back s t : pieces (s ++ 92 :: t) = pieces s ++ pieces t.
Proof.
  induction s as [|c s IH]; cbn [app pieces].
  - destruct (pieces t) eqn:E; [now apply pieces_ne in E|]. reflexivity.
  - rewrite IH. destruct (pieces s) eqn:E; [now apply pieces_ne in E|]. cbn [app]. destruct (Z.eq_dec c 92); reflexivity.
Qed.
Lemma pieces_abs cs : Forall wname cs -> pieces (from_slash (abs_path cs)) = [] :: match cs with [] => [[]] | _ => cs end.
Proof.
  intros F. rewrite abs_path_join. change (from_slash (47 :: join_slash cs)) with (92 :: from_slash (join_slash cs)).
  change (92 :: from_slash (join_slash cs)) with ([] ++ 92 :: from_slash (join_slash cs)). rewrite pieces_back. cbn [pieces app]. f_equal.
  induction F as [|x cs [Hx Nx] F IH]; [reflexivity|].
  assert (Ex : from_slash x = x). { apply nosep_from. apply Forall_forall. intros c I [->| ->]; [|now apply Nx]. destruct Hx as (_ & _ & _ & K). now apply K. }
  destruct cs as [|y cs].
  - cbn [join_slash]. rewrite Ex. rewrite <- (app_nil_r x) at 1. rewrite pieces_flat by auto. cbn [pieces]. now rewrite app_nil_r.
  - change (join_slash (x :: y :: cs)) with (x ++ 47 :: join_slash (y :: cs)). rewrite from_app, Ex. change (from_slash (47 :: join_slash (y :: cs))) with (92 :: from_slash (join_slash (y :: cs))).
    rewrite pieces_back, IH. rewrite <- (app_nil_r x) at 1. rewrite pieces_flat by auto. cbn [pieces app]. now rewrite app_nil_r.
Qed.
Lemma pieces_vol_abs v cs : Forall wname cs -> pieces (from_slash (v ++ abs_path cs)) = pieces (from_slash v) ++ match cs with [] => [[]] | _ => cs end.
Proof.
  intros F. pose proof (pieces_abs cs F) as P. rewrite from_app. rewrite abs_path_join in *. change (from_slash (47 :: join_slash cs)) with (92 :: from_slash (join_slash cs)) in *.
  rewrite pieces_back. change (92 :: from_slash (join_slash cs)) with ([] ++ 92 :: from_slash (join_slash cs)) in P. rewrite pieces_back in P. cbn [pieces app] in P. congruence.
Qed.

(** ** Rel *)
Lemma forall2_rev {A B} (R : A -> B -> Prop) l l' : Forall2 R l l' -> Forall2 R (rev l) (rev l').
Proof. induction 1; cbn [rev]; [constructor|]. apply Forall2_app; auto. Qed.
Lemma forall2_flip {A B} (R : A -> B -> Prop) l l' : Forall2 R l l' -> Forall2 (fun x y => R y x) l' l.
Proof. induction 1; constructor; auto. Qed.
Lemma forall2_refl {A} (R : A -> A -> Prop) l : (forall x, R x x) -> Forall2 R l l.
Proof. intros H. induction l; constructor; auto. Qed.
Lemma app_forall2 {A B} (R : A -> B -> Prop) a : forall a' b b', length a = length a' -> Forall2 R (a ++ b) (a' ++ b') -> Forall2 R b b'.
Proof. induction a as [|x a IH]; intros [|x' a'] b b' L H; try discriminate; cbn [app] in H; auto. inversion H; subst. apply (IH a'); auto. Qed.
Lemma forall2_len {A B} (R : A -> B -> Prop) l l' : Forall2 R l l' -> length l = length l'.
Proof. induction 1; cbn [length]; lia. Qed.
Lemma wdrop_spec same b : forall t b' t', wdrop same b t = (b', t') -> exists c c', b = c ++ b' /\ t = c' ++ t' /\ alike same c c'.
Proof.
  induction b as [|x b IH]; intros t b' t' E; [injection E as <- <-; exists [], []; repeat split; constructor|].
  destruct t as [|y t]; [injection E as <- <-; exists [], []; repeat split; constructor|]. cbn [wdrop] in E. destruct (same y x) eqn:S.
  - apply IH in E as (c & c' & -> & -> & A). exists (x :: c), (y :: c'). repeat split. constructor; auto.
  - injection E as <- <-. exists [], []. repeat split. constructor.
Qed.
Lemma rooted_clean r : rooted r -> exists cs, Forall wname cs /\ clean (slashed r) = abs_path cs /\ forall p, leads p (slashed r) = rev cs.
Proof.
  intros (c & t & -> & Hc). destruct (clean_form (slashed (c :: t))) as [(R & cs & F & E & L)|(R & _)].
  - exists cs. split; [|split; auto]. assert (N : ~ In 92 (abs_path cs)) by (rewrite <- E; apply clean_slashes, slashed_no).
    apply Forall_forall. intros x I. split; [exact (proj1 (Forall_forall _ _) F x I)|]. intros K. apply N. destruct cs as [|y l]; [destruct I|].
    unfold abs_path. apply in_concat. exists (47 :: x). split; [|now right]. apply in_map_iff. eauto.
  - rewrite (rooted_slashed c t Hc) in R. discriminate.
Qed.
Lemma volumed_abs s v r cs : volumed s v r -> rooted r -> clean (slashed r) = abs_path cs ->
  win_clean s = from_slash (v ++ abs_path cs) /\ volume_name s = from_slash v /\ win_path s = slashed v ++ abs_path cs /\ volumed (win_path s) (slashed v) (abs_path cs).
Proof.
  intros V (c & t & -> & Hc) E. pose proof (vol_ok _ _ _ V) as [Ev Er].
  assert (C : win_clean s = from_slash (v ++ abs_path cs)) by (unfold win_clean; rewrite Ev, Er, to_slash_slashed, E; reflexivity).
  assert (P : win_path s = slashed v ++ abs_path cs).
  { unfold win_path. rewrite to_slash_slashed, C, slashed_from, slashed_app. f_equal. rewrite <- E. apply slashed_clean. }
  split; [auto|]. split; [unfold volume_name; now rewrite Ev|]. split; [auto|]. rewrite P.
  destruct V as [_ [D|[S _]]].
  - split; [reflexivity|]. left. now rewrite drive_slashed.
  - split; [reflexivity|]. right. split; [now apply share_slashed|]. rewrite abs_path_join. now left.
Qed.
Lemma from_slashed s : from_slash (slashed s) = from_slash s.
Proof.
  unfold from_slash, slashed. rewrite map_map. apply map_ext. intros c. destruct (Z.eq_dec c 92) as [->|N]; reflexivity.
Qed.
Lemma skip_vol v a : to_slash (skipn (length (from_slash v)) (from_slash (v ++ a))) = slashed a.
Proof. rewrite from_app, skipn_app, skipn_all, Nat.sub_diag. cbn [app skipn]. now rewrite to_slash_slashed, slashed_from. Qed.
Lemma slashed_abs cs : Forall wname cs -> slashed (abs_path cs) = abs_path cs.
Proof.
  intros F. apply slashed_id. destruct cs as [|y l]; [intros [K|[]]; discriminate|]. unfold abs_path. intros K. apply in_concat in K as (x & I & K).
  apply in_map_iff in I as (z & <- & I). destruct K as [K|K]; [discriminate|]. now apply (proj2 (proj1 (Forall_forall _ _) F z I)).
Qed.
Lemma wnames cs : Forall wname cs -> Forall name cs.
Proof. intros F. eapply Forall_impl; [|exact F]. now intros x []. Qed.
Lemma wname_dd : ~ In 92 dd /\ ~ In 58 dd /\ dd <> [] /\ flat dd.
Proof. split; [intros [K|[K|[]]]; discriminate|]. split; [intros [K|[K|[]]]; discriminate|]. split; [discriminate|apply dd_flat]. Qed.
(** A relative text of steps upwards and names without colons stays what it is. *)
Lemma rel_text l : Forall (fun x => x <> [] /\ flat x /\ ~ In 92 x /\ ~ In 58 x) l ->
  let s := win_path (from_slash (join_slash l)) in
  no_volume s /\ ~ rooted s /\ forall p, leads p (slashed s) = fold_left go l p.
Proof.
  intros F. assert (N92 : ~ In 92 (join_slash l)).
  { assert (A : Forall (fun c => c <> 92) (join_slash l)).
    { apply join_all; [discriminate|]. eapply Forall_impl; [|exact F]. intros x (_ & _ & H & _). apply Forall_forall. intros c I ->. auto. }
    intros K. exact (proj1 (Forall_forall _ _) A 92 K eq_refl). }
  assert (N58 : ~ In 58 (join_slash l)).
  { assert (A : Forall (fun c => c <> 58) (join_slash l)).
    { apply join_all; [discriminate|]. eapply Forall_impl; [|exact F]. intros x (_ & _ & _ & H). apply Forall_forall. intros c I ->. auto. }
    intros K. exact (proj1 (Forall_forall _ _) A 58 K eq_refl). }
  assert (G : Forall (fun x => x <> [] /\ flat x) l) by (eapply Forall_impl; [|exact F]; intros x (H1 & H2 & _); auto).
  assert (R : is_rooted (join_slash l) = false).
  { destruct l as [|x l]; [reflexivity|]. pose proof (Forall_inv G) as [Hx Fx]. rewrite rooted_first by auto.
    destruct x as [|c x]; [contradiction|]. unfold is_rooted. destruct (Z.eqb_spec c 47) as [->|]; [|reflexivity]. exfalso. apply Fx. now left. }
  assert (NV : forall t, ~ In 58 t -> is_rooted t = false -> ~ In 92 t -> no_volume t).
  { intros t H5 HR H9 v r V. destruct V as [-> [(c & _ & ->)|[(a & b & h & d & w & Ha & _ & _ & _ & _ & ->) _]]].
    - apply H5. right. now left.
    - cbn [app is_rooted] in HR. destruct Ha as [->| ->]; [discriminate|]. apply H9. now left. }
  assert (N0 : no_volume (from_slash (join_slash l))).
  { intros v r V. destruct V as [E V]. assert (E' : join_slash l = slashed v ++ slashed r) by (rewrite <- slashed_app, <- E, slashed_from; symmetry; now apply slashed_id).
    destruct V as [D|[S _]].
    - apply N58. rewrite E', (drive_slashed v D). destruct D as (c & _ & ->). right. now left.
    - destruct S as (a & b & h & d & w & Ha & _ & _ & _ & _ & ->). rewrite E' in R. cbn [slashed map app] in R. rewrite (sep_slashed a Ha) in R. discriminate. }
  cbv zeta. rewrite (win_path_none _ N0), slashed_from, (slashed_id _ N92).
  assert (C92 : ~ In 92 (clean (join_slash l))) by now apply clean_slashes.
  assert (CR : is_rooted (clean (join_slash l)) = false) by (now rewrite clean_rooted).
  split; [|split].
  - apply NV; auto. assert (A : Forall (fun c => c <> 58) (clean (join_slash l))).
    { apply clean_all; try discriminate. apply Forall_forall. intros c I ->. auto. }
    intros K. exact (proj1 (Forall_forall _ _) A 58 K eq_refl).
  - intros (c & t & E & Hc). rewrite E in CR, C92. cbn [is_rooted] in CR. destruct Hc as [->| ->]; [discriminate|]. apply C92. now left.
  - intros p. rewrite (slashed_id _ C92). change (clean (join_slash l)) with (file_path (join_slash l)); rewrite clean_leads. now apply join_leads.
Qed.

Lemma back_from s : backslashed s = from_slash s.
Proof. unfold backslashed, from_slash. apply map_ext. intros c. destruct (Z.eq_dec c 47) as [->|N]; [reflexivity|]. now rewrite (proj2 (Z.eqb_neq c 47) N). Qed.
Lemma no_colon_names cs r : clean (slashed r) = abs_path cs -> ~ In 58 r -> Forall (fun x => ~ In 58 x) cs.
Proof.
  intros E N. assert (A : Forall (fun c => c <> 58) (abs_path cs)).
  { rewrite <- E. apply clean_all; try discriminate. apply Forall_forall. intros c I ->. unfold slashed in I. apply in_map_iff in I as (d & Hd & I).
    destruct (Z.eq_dec d 92); [discriminate|subst; auto]. }
  apply Forall_forall. intros x I K. destruct cs as [|y l]; [destruct I|]. refine (proj1 (Forall_forall _ _) A 58 _ eq_refl).
  unfold abs_path. apply in_concat. exists (47 :: x). split; [apply in_map_iff; eauto|now right].
Qed.
Lemma relate_win same me root v v' r r' : folds same -> volumed me v r -> rooted r -> ~ In 58 r -> volumed root v' r' -> rooted r' ->
  same (backslashed v') (backslashed v) = true ->
  let s := win_relate same me root in
  no_volume s /\ ~ rooted s /\ forall p, alike same (leads (leads p (slashed r')) (slashed s)) (leads p (slashed r)).
Proof.
  intros Fo Vm Rm N58 Vr Rr Sv. rewrite !back_from in Sv.
  destruct (rooted_clean r Rm) as (cs & Fc & Ec & Lc). destruct (rooted_clean r' Rr) as (ds & Fd & Ed & Ld).
  destruct (volumed_abs me v r cs Vm Rm Ec) as (Cm & Vnm & _ & _). destruct (volumed_abs root v' r' ds Vr Rr Ed) as (_ & _ & Pr & Vp).
  assert (Rd : rooted (abs_path ds)) by (exists 47; eexists; split; [apply abs_path_join|now left]).
  assert (Ed' : clean (slashed (abs_path ds)) = abs_path ds) by (rewrite slashed_abs by auto; rewrite <- Ed; apply clean_fix).
  destruct (volumed_abs (win_path root) (slashed v') (abs_path ds) ds Vp Rd Ed') as (Cr & Vnr & _ & _).
  rewrite from_slashed in Vnr. rewrite from_app, from_slashed, <- from_app in Cr.
  pose proof (no_colon_names cs r Ec N58) as Nc.
  cbv zeta. unfold win_relate, win_rel. rewrite Cm, Cr, Vnm, Vnr, !skip_vol, !slashed_abs, !is_rooted_abs, Sv, !elements_abs by (auto using wnames). cbn [xorb orb negb].
  destruct (same (from_slash (v ++ abs_path cs)) (from_slash (v' ++ abs_path ds))) eqn:W.
  - destruct (rel_text []) as (A & B & _); [constructor|]. change (win_path [46]) with (win_path (from_slash (join_slash []))). split; [exact A|]. split; [exact B|].
    intros p. change (slashed (win_path (from_slash (join_slash [])))) with [46]. rewrite Lc, Ld. change (leads (rev ds) [46]) with (rev ds).
    apply forall2_rev, forall2_flip. apply (folds_pieces _ Fo) in W. rewrite !pieces_vol_abs in W by auto.
    apply app_forall2 in W; [|symmetry; apply (forall2_len _ _ _ (folds_pieces _ Fo _ _ Sv))].
    destruct cs as [|x cs], ds as [|y ds].
    + constructor.
    + inversion W as [|? ? ? ? H1 H2]; subst. exfalso. apply (proj1 (Forall_inv (wnames _ Fd))). apply (folds_nil _ Fo). now right.
    + inversion W as [|? ? ? ? H1 H2]; subst. exfalso. apply (proj1 (Forall_inv (wnames _ Fc))). apply (folds_nil _ Fo). now left.
    + exact W.
  - destruct (wdrop same ds cs) as [b t] eqn:D. apply wdrop_spec in D as (c & c' & -> & -> & Al).
    apply Forall_app in Fd as [Fd1 Fd2]. apply Forall_app in Fc as [Fc1 Fc2]. apply Forall_app in Nc as [_ Nc2].
    assert (Gt : Forall (fun x => x <> [] /\ flat x /\ ~ In 92 x /\ ~ In 58 x) t).
    { apply Forall_forall. intros x I. pose proof (proj1 (Forall_forall _ _) Fc2 x I) as [Hx H9]. pose proof (proj1 (Forall_forall _ _) Nc2 x I) as H5.
      destruct Hx as (H1 & _ & _ & H2). auto. }
    assert (K : forall k, k = length b -> let s := win_path (from_slash (join_slash (repeat dd k ++ t))) in
      no_volume s /\ ~ rooted s /\ forall p, alike same (leads (leads p (slashed r')) (slashed s)) (leads p (slashed r))).
    { intros k ->. destruct (rel_text (repeat dd (length b) ++ t)) as (A & B & C).
      { apply Forall_app. split; auto. apply Forall_forall. intros x I. apply repeat_spec in I as ->. destruct wname_dd as (H1 & H2 & H3 & H4). auto. }
      cbv zeta. split; [exact A|]. split; [exact B|]. intros p. rewrite C, Lc, Ld, fold_left_app, fold_ups, fold_names by (auto using wnames).
      rewrite rev_app_distr, skipn_app, rev_length, Nat.sub_diag. rewrite skipn_all2 by (rewrite rev_length; lia). cbn [app skipn]. rewrite rev_app_distr.
      apply Forall2_app; [apply forall2_refl; apply (folds_refl _ Fo)|now apply forall2_rev]. }
    destruct b as [|x b]; [exact (K 0%nat eq_refl)|]. pose proof (Forall_inv (wnames _ Fd2)) as (_ & _ & Hx & _).
    destruct (str_eqb x [46; 46]) eqn:Ex; [apply str_eqb_eq in Ex; contradiction|]. change [46; 46] with dd. rewrite (map_const dd (x :: b)). now apply K.
Qed.
Lemma relate_win_else same me root v v' r r' : volumed me v r -> rooted r -> volumed root v' r' -> rooted r' ->
  same (backslashed v') (backslashed v) = false -> win_relate same me root = [46].
Proof.
  intros Vm Rm Vr Rr Sv. rewrite !back_from in Sv.
  destruct (rooted_clean r Rm) as (cs & Fc & Ec & Lc). destruct (rooted_clean r' Rr) as (ds & Fd & Ed & Ld).
  destruct (volumed_abs me v r cs Vm Rm Ec) as (Cm & Vnm & _ & _). destruct (volumed_abs root v' r' ds Vr Rr Ed) as (_ & _ & Pr & Vp).
  assert (Rd : rooted (abs_path ds)) by (exists 47; eexists; split; [apply abs_path_join|now left]).
  assert (Ed' : clean (slashed (abs_path ds)) = abs_path ds) by (rewrite slashed_abs by auto; rewrite <- Ed; apply clean_fix).
  destruct (volumed_abs (win_path root) (slashed v') (abs_path ds) ds Vp Rd Ed') as (Cr & Vnr & _ & _). rewrite from_slashed in Vnr.
  unfold win_relate, win_rel. rewrite Vnm, Vnr, Sv. rewrite orb_true_r. destruct (same (win_clean me) (win_clean (win_path root))); reflexivity.
Qed.

Lemma stands_rooted cur cwd s v r w d : volumed s v r -> rooted r -> stands cur cwd s w d -> forall p, d = leads p (slashed r).
Proof.
  intros V (c & t & -> & Hc) S p. destruct (rooted_clean (c :: t)) as (cs & _ & _ & L); [exists c, t; auto|]. rewrite L.
  inversion S as [s' v' r' V' _|s' v' r' V' _|s' N]; subst; [| |now apply N in V]; destruct (volumed_fun _ _ _ _ _ V V') as [_ <-]; apply L.
Qed.
Lemma relate_stands same me root v v' r r' cur cwd w w' d e : folds same -> volumed me v r -> rooted r -> ~ In 58 r -> volumed root v' r' -> rooted r' ->
  same (backslashed v') (backslashed v) = true -> stands cur cwd root w' d -> stands cur cwd me w e ->
  no_volume (win_relate same me root) /\ ~ rooted (win_relate same me root) /\ alike same (leads d (slashed (win_relate same me root))) e.
Proof.
  intros Fo Vm Rm N Vr Rr Sv Sr Sm. destruct (relate_win same me root v v' r r' Fo Vm Rm N Vr Rr Sv) as (A & B & C). split; [exact A|]. split; [exact B|].
  rewrite (stands_rooted _ _ _ _ _ _ _ Vr Rr Sr []), (stands_rooted _ _ _ _ _ _ _ Vm Rm Sm []). apply C.
Qed.
Ltac vdrive := split; [reflexivity|]; left; eexists; split; [|reflexivity]; lia.
Lemma relate_other_volume : exists me root v r v' r', volumed me v r /\ rooted r /\ volumed root v' r' /\ rooted r' /\
  win_relate ascii_fold me root = [46] /\ ~ alike ascii_fold (leads (leads [] (slashed r')) (slashed (win_relate ascii_fold me root))) (leads [] (slashed r)).
Proof.
  exists w_other, w_me, [100; 58], [47; 103], [99; 58], [47; 97; 47; 102].
  split; [vdrive|]. split; [exists 47; eexists; split; [reflexivity|now left]|]. split; [vdrive|]. split; [exists 47; eexists; split; [reflexivity|now left]|].
  split; [reflexivity|]. intros K. vm_compute in K. inversion K as [|? ? ? ? _ K1]; subst. inversion K1.
Qed.
Lemma relate_bare_share : exists me root v r, volumed me v r /\ rooted r /\ volumed root v [] /\ share v /\ ~ In 58 r /\
  win_relate ascii_fold me root = [46] /\ ~ alike ascii_fold (leads [] (slashed (win_relate ascii_fold me root))) (leads [] (slashed r)).
Proof.
  assert (S : share w_share_bare).
  { exists 47, 47, [104], 47, [115]. repeat split; try (now left); try discriminate; constructor; auto; intros [K|K]; discriminate. }
  exists (w_share_bare ++ [47; 120]), w_share_bare, w_share_bare, [47; 120].
  split; [split; [reflexivity|right; split; [exact S|now left]]|]. split; [exists 47; eexists; split; [reflexivity|now left]|].
  split; [split; [reflexivity|right; split; [exact S|exact Logic.I]]|]. split; [exact S|]. split; [intros [K|[K|[]]]; discriminate|].
  split; [reflexivity|]. intros K. vm_compute in K. inversion K.
Qed.
Lemma relate_colon : exists me root v r r', volumed me v r /\ rooted r /\ volumed root v r' /\ rooted r' /\ ~ no_volume (win_relate ascii_fold me root).
Proof.
  exists [99; 58; 47; 97; 47; 100; 58; 47; 120], [99; 58; 47; 97], [99; 58], [47; 97; 47; 100; 58; 47; 120], [47; 97].
  split; [vdrive|]. split; [exists 47; eexists; split; [reflexivity|now left]|]. split; [vdrive|]. split; [exists 47; eexists; split; [reflexivity|now left]|].
  intros N. apply (N [100; 58] [47; 120]). change (win_relate ascii_fold [99; 58; 47; 97; 47; 100; 58; 47; 120] [99; 58; 47; 97]) with [100; 58; 47; 120]. vdrive.
Qed.

(** ** GoPath *)
Lemma src_leads r p : rooted r -> ~ In 59 r -> leads p (slashed (r ++ [47; 115; 114; 99; 47])) = [115; 114; 99] :: leads p (slashed r).
Proof.
  intros (c & t & -> & Hc) N. rewrite <- (go_path_first (slashed (c :: t)) [] p).
  - unfold go_path. rewrite clean_leads, app_nil_r, first_entry_none; [now rewrite slashed_app|].
    intros K. unfold slashed in K. apply in_map_iff in K as (d & E & I). destruct (Z.eq_dec d 92); [discriminate|subst; auto].
  - intros K. unfold slashed in K. apply in_map_iff in K as (d & E & I). destruct (Z.eq_dec d 92); [discriminate|subst; auto].
  - discriminate.
  - now left.
Qed.
Lemma entry_of e q : ~ In 59 e -> (q = [] \/ exists q', q = 59 :: q') -> first_entry (e ++ q) = e.
Proof. intros N [->|[q' ->]]; [rewrite app_nil_r; now apply first_entry_none|now apply first_entry_some]. Qed.
Lemma volumed_src e v r : volumed e v r -> rooted r \/ share v -> volumed (e ++ [47; 115; 114; 99; 47]) v (r ++ [47; 115; 114; 99; 47]) /\ rooted (r ++ [47; 115; 114; 99; 47]).
Proof.
  intros [E V] H. assert (R : rooted (r ++ [47; 115; 114; 99; 47])).
  { destruct H as [(c & t & -> & Hc)|S]; [exists c; eexists; split; [reflexivity|auto]|]. destruct V as [D|[_ K]]; [exfalso; eapply drive_share; eauto|].
    destruct r as [|c t]; [exists 47; eexists; split; [reflexivity|now left]|exists c; eexists; split; [reflexivity|auto]]. }
  split; [|exact R]. split; [rewrite E; now rewrite app_assoc|]. destruct V as [D|[S K]]; [now left|]. right. split; [auto|].
  destruct R as (c & t & -> & Hc). exact Hc.
Qed.
Lemma go_path_win e v r q cur cwd w d : ~ In 59 e -> volumed e v r -> rooted r \/ share v -> (q = [] \/ exists q', q = 59 :: q') ->
  stands cur cwd e w d -> stands cur cwd (win_go_path (e ++ q)) w ([115; 114; 99] :: d).
Proof.
  intros N V H Q S. unfold win_go_path. rewrite entry_of by auto. destruct (volumed_src e v r V H) as [V' R].
  apply stands_iff; [intros NV; exfalso; exact (NV _ _ V')|].
  assert (Nr : ~ In 59 r) by (intros K; apply N; destruct V as [-> _]; apply in_or_app; now right).
  assert (L : rooted r \/ r = []). { destruct H as [Rr|Sh]; [now left|]. destruct V as [_ [D|[_ K]]]; [exfalso; eapply drive_share; eauto|]. destruct r as [|c t]; [now right|left; exists c, t; auto]. }
  inversion S as [s' v' r' V1 D|s' v' r' V1 Sh|s' N0]; subst; [| |exfalso; exact (N0 _ _ V)]; destruct (volumed_fun _ _ _ _ _ V V1) as [<- <-].
  - destruct L as [Rr| ->]; [|destruct H as [(c & t & K & _)|Sh]; [discriminate|exfalso; eapply drive_share; eauto]].
    rewrite <- src_leads by auto. now apply st_drive.
  - destruct L as [Rr| ->]; [rewrite <- src_leads by auto; now apply st_share|].
    change ([115; 114; 99] :: leads [] (slashed [])) with (leads [] (slashed ([] ++ [47; 115; 114; 99; 47]))). now apply st_share.
Qed.
Lemma relate_go_win same e v r q p v' r' cur cwd w w' d f : folds same -> ~ In 59 e -> volumed e v r -> rooted r \/ share v -> (q = [] \/ exists q', q = 59 :: q') ->
  volumed p v' r' -> rooted r' -> ~ In 58 r' -> same (backslashed v) (backslashed v') = true ->
  stands cur cwd (win_go_path (e ++ q)) w d -> stands cur cwd p w' f ->
  no_volume (win_relate_go same (e ++ q) p) /\ ~ rooted (win_relate_go same (e ++ q) p) /\ alike same (leads d (slashed (win_relate_go same (e ++ q) p))) f.
Proof.
  intros Fo N V H Q Vp Rp N58 Sv Sg Sp. destruct (volumed_src e v r V H) as [V' R].
  change (win_relate_go same (e ++ q) p) with (match win_rel same (win_go_path (e ++ q)) (win_path p) with Some s => win_path s | None => win_path [] end).
  unfold win_go_path in *. rewrite entry_of in * by auto.
  destruct (rooted_clean r' Rp) as (cs & Fc & Ec & Lc). destruct (volumed_abs p v' r' cs Vp Rp Ec) as (_ & _ & _ & Vp').
  apply (relate_stands same (win_path p) (e ++ [47; 115; 114; 99; 47]) (slashed v') v (abs_path cs) (r ++ [47; 115; 114; 99; 47]) cur cwd w' w d f); auto.
  - exists 47; eexists; split; [apply abs_path_join|now left].
  - pose proof (no_colon_names cs r' Ec N58) as Nc. intros K. destruct cs as [|y l]; [destruct K as [K|[]]; discriminate|]. unfold abs_path in K. apply in_concat in K as (x & I & K).
    apply in_map_iff in I as (z & <- & I). destruct K as [K|K]; [discriminate|]. exact (proj1 (Forall_forall _ _) Nc z I K).
  - rewrite (back_from (slashed v')), from_slashed, <- back_from. exact Sv.
  - exact (proj1 (stands_iff cur cwd _ w d (fun NV => False_ind _ (NV _ _ V'))) Sg).
  - apply stands_iff; [intros NV; exfalso; exact (NV _ _ Vp)|exact Sp].
Qed.
Lemma go_path_bare : exists e cur cwd w d, drive e /\ stands cur cwd e w d /\ ~ stands cur cwd (win_go_path e) w ([115; 114; 99] :: d).
Proof.
  exists [99; 58], [99; 58], (fun _ => [[97]]), [99; 58], [[97]]. split; [exists 99; split; [lia|reflexivity]|].
  assert (V : volumed [99; 58] [99; 58] []) by vdrive.
  split; [change [[97]] with (leads ((fun _ : list Z => [[97]]) [99; 58]) (slashed [])) at 2; apply (st_drive [99; 58] (fun _ => [[97]])); [exact V|exists 99; split; [lia|reflexivity]]|].
  intros S. assert (V' : volumed (win_go_path [99; 58]) [99; 58] [47; 115; 114; 99]) by vdrive.
  assert (R : rooted [47; 115; 114; 99]) by (exists 47; eexists; split; [reflexivity|now left]).
  pose proof (stands_rooted _ _ _ _ _ _ _ V' R S []) as K. vm_compute in K. discriminate.
Qed.
