(** Dir and Base on Windows of relative paths. *)
From Coq Require Import ZArith List Bool Arith Lia ZifyBool ZifyNat.
From Verif Require Import GoBase GoStrings PathSpec PathModel PathProofs WinSpec WinModel WinProofs WinMore WinJoin WinDir.
Import ListNotations.
Open Scope Z_scope.

(** An element of a cleaned relative path that has no separator and no colon. *)
Definition elem (x : list Z) : Prop := x <> [] /\ flat x /\ ~ In 92 x /\ ~ In 58 x.
Lemma rel_snoc l x : l <> [] -> rel_path (l ++ [x]) = join_slash l ++ 47 :: x.
Proof.
  induction l as [|y l IH]; intros N; [congruence|]. destruct l as [|z l]; [reflexivity|]. specialize (IH ltac:(discriminate)).
  cbn [app] in *. change (rel_path (y :: z :: l ++ [x])) with (y ++ 47 :: rel_path (z :: l ++ [x])). rewrite IH. cbn [join_slash]. now rewrite <- app_assoc.
Qed.
Lemma rel_chars (c : Z) l : c <> 47 -> c <> 46 -> Forall (fun x => ~ In c x) l -> ~ In c (rel_path l).
Proof.
  intros N1 N2. induction 1 as [|x l H F IH]; [intros [E|[]]; congruence|]. cbn [rel_path]. destruct l; [exact H|].
  intros I. apply in_app_or in I as [I|[I|I]]; [auto|congruence|auto].
Qed.
Lemma elem_no l : Forall elem l -> ~ In 92 (rel_path l) /\ ~ In 58 (rel_path l).
Proof.
  intros F. split; apply rel_chars; try discriminate; eapply Forall_impl; [|exact F|..|exact F]; intros x (_ & _ & H1 & H2); auto.
Qed.
Lemma elem_head x : elem x -> exists c t, x = c :: t /\ ~ sep c.
Proof.
  intros (N & H1 & H2 & _). destruct x as [|c t]; [congruence|]. exists c, t. split; [reflexivity|]. intros [->| ->]; [apply H1|apply H2]; now left.
Qed.
Lemma rel_head l : Forall elem l -> exists c t, rel_path l = c :: t /\ ~ sep c.
Proof.
  intros F. destruct l as [|x l]; [exists 46, []; split; [reflexivity|intros [?|?]; discriminate]|]. destruct (elem_head x (Forall_inv F)) as (c & t & -> & H).
  destruct l; [exists c, t; auto|eexists; eexists; split; [reflexivity|exact H]].
Qed.
Lemma no_volume_head s c t : s = c :: t -> ~ sep c -> ~ In 58 s -> no_volume s.
Proof.
  intros -> H N v r V. destruct V as [E [(d & _ & ->)|[(a & b & h & d & w & SA & _ & _ & _ & _ & ->) _]]].
  - apply N. rewrite E. right. now left.
  - injection E as -> _. auto.
Qed.
Lemma rel_no_volume l : Forall elem l -> no_volume (rel_path l).
Proof. intros F. destruct (rel_head l F) as (c & t & E & H). apply (no_volume_head _ c t E H). now apply elem_no. Qed.
Lemma strip_rel l x : elem x -> strip_seps (rel_path (l ++ [x])) = rel_path (l ++ [x]).
Proof.
  intros (N & H1 & H2 & _). assert (K : exists a z, rel_path (l ++ [x]) = a ++ [z] /\ ~ sep z).
  { destruct (exists_last N) as (x' & z & ->). assert (Z : ~ sep z) by (intros [->| ->]; [apply H1|apply H2]; apply in_or_app; right; now left).
    destruct l as [|y l]; [exists x', z; auto|]. rewrite rel_snoc by discriminate. exists (join_slash (y :: l) ++ 47 :: x'), z. split; [now rewrite <- app_assoc|exact Z]. }
  destruct K as (a & z & -> & Z). now apply strip_word.
Qed.
Lemma base_rel l x : Forall elem l -> elem x -> win_base (rel_path (l ++ [x])) = x.
Proof.
  intros F X. assert (FX : Forall elem (l ++ [x])) by (apply Forall_app; auto). destruct (rel_head _ FX) as (c & t & E & _). unfold win_base. rewrite strip_rel by auto.
  destruct (no_vol _ (rel_no_volume _ FX)) as [_ ->]. rewrite split_sep_path by (now apply elem_no).
  assert (S : snd (split_path (rel_path (l ++ [x]))) = x).
  { destruct X as (N & H1 & _). destruct l as [|y l]; [cbn [app rel_path]; now rewrite split_flat|]. rewrite rel_snoc, split_slash by (discriminate || auto). reflexivity. }
  rewrite S. rewrite E. destruct X as (N & _). destruct x; [congruence|reflexivity].
Qed.
Lemma dir_rel l x : Forall elem l -> elem x -> no_volume (win_dir (rel_path (l ++ [x]))) /\ ~ In 58 (win_dir (rel_path (l ++ [x]))) /\
  win_dir (rel_path (l ++ [x])) <> [] /\ forall p, leads p (slashed (win_dir (rel_path (l ++ [x])))) = fold_left go l p.
Proof.
  intros F X. assert (FX : Forall elem (l ++ [x])) by (apply Forall_app; auto). unfold win_dir, volume_name. destruct (no_vol _ (rel_no_volume _ FX)) as [-> ->].
  rewrite split_sep_path by (now apply elem_no). cbn [from_slash map length]. rewrite andb_false_r. cbn [app].
  destruct l as [|y l].
  - cbn [app rel_path]. rewrite split_flat by apply X. cbn [fst]. change (win_clean []) with [46]. split; [apply (no_volume_head _ 46 []); [reflexivity|intros [?|?]; discriminate|cbn; lia]|].
    split; [cbn; lia|]. split; [discriminate|reflexivity].
  - rewrite rel_snoc, split_slash by (discriminate || apply X). cbn [fst]. set (s := join_slash (y :: l) ++ [47]).
    assert (FL : Forall flat (y :: l)) by (eapply Forall_impl; [|exact F]; intros z H; apply H).
    assert (Hs : exists c t, s = c :: t /\ ~ sep c).
    { unfold s. destruct (elem_head y (Forall_inv F)) as (c & t & -> & H). destruct l; eexists; eexists; split; try reflexivity; exact H. }
    assert (J : ~ In 92 s /\ ~ In 58 s).
    { split; unfold s; intros I; apply in_app_or in I as [I|[I|[]]]; try discriminate; revert I.
      - change (~ In 92 (join_slash (y :: l))). apply in_no, join_all; [discriminate|]. eapply Forall_impl; [|exact F]. intros z (_ & _ & H1 & H2). now apply no_in.
      - change (~ In 58 (join_slash (y :: l))). apply in_no, join_all; [discriminate|]. eapply Forall_impl; [|exact F]. intros z (_ & _ & H1 & H2). now apply no_in. }
    destruct J as [J9 J5]. destruct Hs as (c & t & Es & Hc). pose proof (no_volume_head s c t Es Hc J5) as NV.
    rewrite (win_clean_none s NV) by (rewrite Es; discriminate). rewrite (slashed_id s J9).
    assert (C5 : ~ In 58 (clean s)) by now apply clean_colon.
    assert (C9 : ~ In 92 (clean s)) by now apply clean_slashes.
    assert (NC : no_volume (clean s)). { pose proof (plain_kept s J5 NV) as K. rewrite (win_path_none s NV), (slashed_id s J9) in K. exact K. }
    split; [now apply no_volume_from|]. split; [intros I; apply C5; unfold from_slash in I; apply in_map_iff in I as (d & E & I); destruct (Z.eqb_spec d 47); [discriminate|now subst]|].
    split.
    { intros E. assert (L : length (from_slash (clean s)) = 0%nat) by now rewrite E. rewrite from_length in L. destruct (clean s) eqn:Ec; [|discriminate].
      destruct (clean_form s) as [(_ & cs & Fc & Ec' & _)|(_ & k & cs & Fc & Ec' & _)]; rewrite Ec in Ec'; [destruct cs; discriminate|].
      destruct (repeat dd k ++ cs) as [|z q] eqn:Eq; [discriminate|]. assert (z <> []) by (destruct k; cbn in Eq; [subst cs; exact (proj1 (Forall_inv Fc))|injection Eq as <- _; discriminate]).
      destruct z; [congruence|]. destruct q; discriminate. }
    intros p. rewrite slashed_from, (slashed_id _ C9). change (clean s) with (file_path s). rewrite clean_leads, leads_fold.
    replace (is_rooted s) with false by (symmetry; rewrite Es; cbn; apply Z.eqb_neq; intros ->; apply Hc; now left).
    unfold s. change [47] with (47 :: []). rewrite segments_app, segments_join_flat by (discriminate || auto). rewrite fold_left_app. reflexivity.
Qed.
Lemma relative_clean s : ~ In 58 s -> ~ rooted s -> exists k cs, Forall elem (repeat dd k ++ cs) /\ Forall name cs /\ clean (slashed s) = rel_path (repeat dd k ++ cs) /\
  forall p, leads p (slashed s) = rev cs ++ skipn k p.
Proof.
  intros C R. pose proof (rooted_is s R) as R'. destruct (clean_form (slashed s)) as [(K & _)|(_ & k & cs & F & E & L)]; [congruence|].
  exists k, cs. split; [|auto]. apply Forall_app. split.
  { apply Forall_forall. intros x I. apply repeat_spec in I as ->. unfold dd, elem, flat. cbn. repeat split; try discriminate; lia. }
  pose proof (clean_slashes _ (slashed_no s)) as N9. assert (N5 : ~ In 58 (clean (slashed s))) by (apply clean_colon; now apply slashed_colon). rewrite E in N9, N5.
  assert (SUB : forall c x, In x cs -> In c x -> In c (rel_path (repeat dd k ++ cs))).
  { clear. intros c x I J. assert (I' : In x (repeat dd k ++ cs)) by (apply in_or_app; now right). clear I. induction (repeat dd k ++ cs) as [|y l IH]; [destruct I'|].
    cbn [rel_path]. destruct l as [|z l]; [destruct I' as [->|[]]; exact J|]. apply in_or_app. destruct I' as [->|I']; [now left|right; right; auto]. }
  rewrite Forall_forall in *. intros x I. destruct (F x I) as (H1 & _ & _ & H2). split; [exact H1|]. split; [exact H2|]. split; intros J; [apply N9|apply N5]; eapply SUB; eauto.
Qed.
Lemma relative_form s : no_volume s -> ~ In 58 s -> ~ rooted s -> exists k cs, Forall elem (repeat dd k ++ cs) /\ Forall name cs /\ win_path s = rel_path (repeat dd k ++ cs) /\
  forall p, leads p (slashed s) = rev cs ++ skipn k p.
Proof. intros N C R. rewrite (win_path_none s N). now apply relative_clean. Qed.
Lemma drive_dir v r : drive v -> no_volume r -> win_dir (v ++ r) = v ++ win_dir r.
Proof.
  intros D N. unfold win_dir, volume_name. destruct (vol_ok _ _ _ (volumed_drive v r D)) as [-> ->]. destruct (no_vol r N) as [-> ->]. rewrite (drive_from v D).
  destruct D as (c & _ & ->). cbn [length from_slash map app]. now rewrite !andb_false_r.
Qed.
Lemma drive_base v l x : drive v -> Forall elem l -> elem x -> win_base (v ++ rel_path (l ++ [x])) = x.
Proof.
  intros D F X. pose proof (base_rel l x F X) as B. assert (FX : Forall elem (l ++ [x])) by (apply Forall_app; auto). destruct (rel_head _ FX) as (c & t & E & _).
  unfold win_base in *. rewrite strip_app, strip_rel by (rewrite ?strip_rel by auto; rewrite ?E; auto; discriminate). rewrite strip_rel in B by auto.
  destruct (vol_ok _ _ _ (volumed_drive v (rel_path (l ++ [x])) D)) as [_ ->]. destruct (no_vol _ (rel_no_volume _ FX)) as [_ R]. rewrite R in B. rewrite E in B |- *.
  destruct D as (d & _ & ->). exact B.
Qed.
Lemma names_back cs p : Forall name cs -> fold_left go cs p = rev cs ++ p.
Proof.
  revert p. induction cs as [|x cs IH]; intros p F; [reflexivity|]. inversion F as [|? ? (H1 & H2 & H3 & _) F']; subst. cbn [fold_left rev]. rewrite IH by assumption.
  unfold go. destruct (list_eq_dec Z.eq_dec x []), (list_eq_dec Z.eq_dec x [46]), (list_eq_dec Z.eq_dec x [46; 46]); try congruence. now rewrite <- app_assoc.
Qed.
Lemma ups_back k p : fold_left go (repeat dd k) p = skipn k p.
Proof. revert p. induction k as [|k IH]; intros p; [reflexivity|]. cbn [repeat fold_left]. rewrite IH. destruct p; [cbn; now rewrite skipn_nil|reflexivity]. Qed.
Lemma dir_base_relative s x f : no_volume s -> ~ In 58 s -> ~ rooted s -> (forall p, leads p (slashed s) = x :: f p) ->
  win_base (win_path s) = x /\ no_volume (win_dir (win_path s)) /\ (forall p, leads p (slashed (win_dir (win_path s))) = f p) /\
  forall cur cwd, stands cur cwd (win_joins [win_dir (win_path s); win_base (win_path s)]) cur (leads (cwd cur) (slashed s)).
Proof.
  intros N C R H. destruct (relative_form s N C R) as (k & cs & Fe & F & E & L).
  destruct (rev cs) as [|y l] eqn:ER.
  { exfalso. specialize (H []). rewrite L, skipn_nil in H. discriminate. }
  assert (EC : cs = rev l ++ [y]) by (rewrite <- (rev_involutive cs), ER; reflexivity).
  assert (y = x) by (specialize (H []); rewrite L in H; cbn in H; congruence). subst y.
  assert (FP : forall p, f p = l ++ skipn k p) by (intros p; specialize (H p); rewrite L in H; cbn in H; congruence).
  subst cs. rewrite app_assoc in Fe, E. apply Forall_app in Fe as [Fl FX]. pose proof (Forall_inv FX) as X. apply Forall_app in F as [Fn FXn]. pose proof (Forall_inv FXn) as Xn.
  rewrite E, (base_rel _ x Fl X). destruct (dir_rel _ x Fl X) as (D1 & D2 & D3 & D4).
  assert (LD : forall p, leads p (slashed (win_dir (rel_path ((repeat dd k ++ rev l) ++ [x])))) = f p).
  { intros p. rewrite D4, fold_left_app, ups_back, names_back by assumption. now rewrite rev_involutive, FP. }
  split; [reflexivity|]. split; [exact D1|]. split; [exact LD|]. set (d := win_dir (rel_path ((repeat dd k ++ rev l) ++ [x]))) in *.
  assert (JA : joinable d [x]).
  { split; [exact D3|]. split; [intros D; exfalso; apply (D1 d []); split; [now rewrite app_nil_r|now left]|]. intros _. constructor; [exact D2|]. constructor; [apply X|constructor]. }
  intros cur cwd. pose proof (joins_place cur cwd d [x] cur _ JA (st_none cur cwd d D1)) as S. rewrite LD in S. replace (leads (cwd cur) (slashed s)) with (onwards [x] (f (cwd cur))); [exact S|].
  rewrite onwards_fold. cbn [map concat]. rewrite app_nil_r. destruct X as (X1 & X2 & X3 & _). rewrite (slashed_id x X3), segments_one by exact X2.
  rewrite (names_back [x] _ FXn). cbn. now rewrite H.
Qed.
Lemma elem_dd : elem dd.
Proof. unfold dd, elem, flat. cbn. repeat split; try discriminate; lia. Qed.
Lemma skip_inj k j : (forall p : list (list Z), skipn k p = skipn j p) -> k = j.
Proof.
  intros H. assert (L : forall n, (n - k = n - j)%nat) by (intros n; specialize (H (repeat [] n)); apply (f_equal (@length _)) in H; now rewrite !skipn_length, !repeat_length in H).
  specialize (L (k + j)%nat). lia.
Qed.
Lemma dir_base_up s k : no_volume s -> ~ In 58 s -> ~ rooted s -> (forall p, leads p (slashed s) = skipn k p) ->
  win_base (win_path s) = match k with O => [46] | Datatypes.S _ => [46; 46] end /\ no_volume (win_dir (win_path s)) /\
  (forall p, leads p (slashed (win_dir (win_path s))) = skipn (pred k) p).
Proof.
  intros N C R H. destruct (relative_form s N C R) as (k' & cs & Fe & F & E & L).
  assert (cs = []). { specialize (H []). rewrite L, !skipn_nil, app_nil_r in H. rewrite <- (rev_involutive cs), H. reflexivity. } subst cs.
  assert (k' = k) by (apply skip_inj; intros p; rewrite <- H, L; reflexivity). subst k'. rewrite app_nil_r in E, Fe. rewrite E. destruct k as [|k].
  - cbn [repeat rel_path]. split; [reflexivity|]. change (win_dir [46]) with [46]. split; [apply (no_volume_head _ 46 []); [reflexivity|intros [?|?]; discriminate|cbn; lia]|]. reflexivity.
  - assert (Er : repeat dd (Datatypes.S k) = repeat dd k ++ [dd]) by (cbn [repeat]; now rewrite repeat_cons).
    assert (Fk : Forall elem (repeat dd k)) by (rewrite Er in Fe; now apply Forall_app in Fe as [? _]).
    rewrite Er, (base_rel _ _ Fk elem_dd). destruct (dir_rel _ _ Fk elem_dd) as (D1 & _ & _ & D4). split; [reflexivity|]. split; [exact D1|].
    intros p. now rewrite D4, ups_back.
Qed.
Lemma dir_base_drive s v r x f : volumed s v r -> drive v -> ~ In 58 r -> ~ rooted r -> (forall p, leads p (slashed r) = x :: f p) ->
  win_base (win_path s) = x /\ forall cur cwd, stands cur cwd (win_dir (win_path s)) v (f (cwd v)).
Proof.
  intros V D C R H. destruct (relative_clean r C R) as (k & cs & Fe & F & E & L). rewrite (win_path_drive s v r V D).
  destruct (rev cs) as [|y l] eqn:ER.
  { exfalso. specialize (H []). rewrite L, skipn_nil in H. discriminate. }
  assert (EC : cs = rev l ++ [y]) by (rewrite <- (rev_involutive cs), ER; reflexivity).
  assert (y = x) by (specialize (H []); rewrite L in H; cbn in H; congruence). subst y.
  assert (FP : forall p, f p = l ++ skipn k p) by (intros p; specialize (H p); rewrite L in H; cbn in H; congruence).
  subst cs. rewrite app_assoc in Fe, E. apply Forall_app in Fe as [Fl FX]. pose proof (Forall_inv FX) as X. apply Forall_app in F as [Fn _].
  rewrite E, (drive_base v _ x D Fl X). split; [reflexivity|]. intros cur cwd.
  rewrite (drive_dir v _ D) by (apply rel_no_volume, Forall_app; auto). destruct (dir_rel _ x Fl X) as (_ & _ & _ & D4).
  replace (f (cwd v)) with (leads (cwd v) (slashed (win_dir (rel_path ((repeat dd k ++ rev l) ++ [x]))))); [apply st_drive; [now apply volumed_drive|exact D]|].
  rewrite D4, fold_left_app, ups_back, names_back by assumption. now rewrite rev_involutive, FP.
Qed.
Lemma dir_base_drive_up s v r k : volumed s v r -> drive v -> ~ In 58 r -> ~ rooted r -> (forall p, leads p (slashed r) = skipn k p) ->
  win_base (win_path s) = match k with O => [46] | Datatypes.S _ => [46; 46] end /\ forall cur cwd, stands cur cwd (win_dir (win_path s)) v (skipn (pred k) (cwd v)).
Proof.
  intros V D C R H. destruct (relative_clean r C R) as (k' & cs & Fe & F & E & L). rewrite (win_path_drive s v r V D).
  assert (cs = []). { specialize (H []). rewrite L, !skipn_nil, app_nil_r in H. rewrite <- (rev_involutive cs), H. reflexivity. } subst cs.
  assert (k' = k) by (apply skip_inj; intros p; rewrite <- H, L; reflexivity). subst k'. rewrite app_nil_r in E, Fe. rewrite E. destruct k as [|k].
  - destruct D as (c & D' & ->). assert (D : drive [c; 58]) by (exists c; auto). cbn [repeat rel_path].
    split; [unfold win_base; change (strip_seps ([c; 58] ++ [46])) with (strip_seps ([c; 58] ++ [46])); rewrite (strip_word [c; 58] 46) by (intros [?|?]; discriminate); destruct (vol_ok _ _ _ (volumed_drive [c; 58] [46] D)) as [_ ->]; reflexivity|].
    intros cur cwd. rewrite (drive_dir _ _ D) by (apply (no_volume_head _ 46 []); [reflexivity|intros [?|?]; discriminate|cbn; lia]). change (win_dir [46]) with [46].
    change (skipn (pred 0) (cwd [c; 58])) with (leads (cwd [c; 58]) (slashed [46])). apply st_drive; [now apply volumed_drive|exact D].
  - assert (Er : repeat dd (Datatypes.S k) = repeat dd k ++ [dd]) by (cbn [repeat]; now rewrite repeat_cons).
    assert (Fk : Forall elem (repeat dd k)) by (rewrite Er in Fe; now apply Forall_app in Fe as [? _]).
    rewrite Er, (drive_base v _ _ D Fk elem_dd). split; [reflexivity|]. intros cur cwd.
    rewrite (drive_dir v _ D) by (apply rel_no_volume, Forall_app; auto using elem_dd). destruct (dir_rel _ _ Fk elem_dd) as (_ & _ & _ & D4).
    replace (skipn (pred (Datatypes.S k)) (cwd v)) with (leads (cwd v) (slashed (win_dir (rel_path (repeat dd k ++ [dd]))))); [apply st_drive; [now apply volumed_drive|exact D]|].
    now rewrite D4, ups_back.
Qed.
