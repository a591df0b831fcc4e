(** Proofs about Fingerprint after Rename. *)
From Coq Require Import ZArith List Bool Lia Permutation.
From Verif Require Import GoBase PathSpec PathModel PathProofs FsModel FsSpec HashProofs LinkSpec LinkProofs LinkMore LoopSpec LoopModel LoopProofs SubsSpec RenSpec MvdirSpec MvdirModel MvdirProofs MvfpSpec.
From Verif Require WlinkProofs.
Import ListNotations.
Open Scope Z_scope.

Lemma linkless_walk fs : sound fs -> forall cs i j k r, linkless fs i -> SubsSpec.inside fs i cs j -> fs j = Some k -> walk r true fs cs i = Found j.
Proof.
  intros (_ & _ & S3). induction cs as [|x cs IH]; intros i j k r N I Ej; inversion I as [|? up es ? c ? ? Ei F I']; subst; [apply walk_nil|].
  destruct (S3 _ _ _ _ _ Ei F) as (Nx & _ & n & En & _). destruct (name_kind _ Nx) as [Ix Ux]. rewrite walk_cons, Ei, Ix, Ux, F, En.
  assert (N' : linkless fs c) by (intros ds d t Id; apply (N (x :: ds)); econstructor; eauto). destruct n as [b|u e|t]; [eauto|eauto|].
  exfalso. exact (N' [] c t (inside_here _ _) En).
Qed.
Lemma linkless_walk_back fs : sound fs -> forall cs i j r, Forall name cs -> linkless fs i -> walk r true fs cs i = Found j -> SubsSpec.inside fs i cs j.
Proof.
  intros S. pose proof S as (_ & _ & S3). induction cs as [|x cs IH]; intros i j r Hc N W; [rewrite walk_nil in W; injection W as <-; constructor|].
  apply Forall_cons_iff in Hc as [Nx Hc]. destruct (name_kind _ Nx) as [Ix Ux]. rewrite walk_cons in W. destruct (fs i) as [[|up es|]|] eqn:Ei; try discriminate.
  rewrite Ix, Ux in W. destruct (find x es) as [c|] eqn:F; [|discriminate].
  assert (N' : linkless fs c) by (intros ds d t Id; apply (N (x :: ds)); econstructor; eauto).
  destruct (fs c) as [[b|u e|t]|] eqn:Ec; try discriminate; try (econstructor; eauto; fail). exfalso. exact (N' [] c t (inside_here _ _) Ec).
Qed.
(** A directory without links can be hashed. *)
Lemma linkless_hash text srt lim fs cwd s i H : sound fs -> bounded fs H -> stat lim fs cwd (file_path s) = Found i -> linkless fs i ->
  exists fuel0, forall fuel, (fuel0 <= fuel)%nat -> exists h n, hash_links text srt fuel lim fs cwd (file_path s) = Ok (Some h) /\
    shows fs i n /\ hash_tree text srt (file_path s) n = Some h.
Proof.
  intros S B St N. destruct (hash_all text srt lim fs cwd s H S B) as (f0 & A). exists f0. intros fuel L. destruct (A fuel L) as (R & E & K1 & K2). destruct R as [h|].
  - destruct (K1 h eq_refl) as (i' & n & St' & Sh & Ht). rewrite St in St'. injection St' as <-. eauto.
  - exfalso. destruct (proj1 K2 eq_refl) as [K|(xs & x & d & up & es & c & Hxs & Hx & Sd & Ed & F & K)]; [exact (K i St)|].
    pose proof (clean_canonical s) as C. destruct (at_start _ _ _ _ _ C St) as (r & _ & _ & At). rewrite stat_below in Sd by auto. rewrite At in Sd.
    pose proof (linkless_walk_back fs S _ _ _ _ Hxs N Sd) as I. pose proof S as (_ & _ & S3). destruct (S3 _ _ _ _ _ Ed F) as (_ & _ & n & En & _).
    apply (K c). rewrite stat_below by (auto; apply Forall_app; auto). rewrite At. eapply linkless_walk; eauto. eapply inside_snoc; eauto.
Qed.
(** Two directories with the same entries inside show the same content. *)
Lemma shows_moved fs fs' : sound fs -> sound fs' -> (forall j, (forall u e, fs j <> Some (NDir u e)) -> fs' j = fs j) ->
  forall m n i n', (fsize n < m)%nat -> linkless fs i ->
  (forall cs j u e, SubsSpec.inside fs i cs j -> fs j = Some (NDir u e) -> exists u', fs' j = Some (NDir u' e)) ->
  shows fs i n -> shows fs' i n' -> same_content n n'.
Proof.
  intros S S' O. pose proof S as (_ & _ & S3). pose proof S' as (_ & _ & S3'). induction m as [|m IH]; intros n i n' L N En Sh Sh'; [lia|].
  inversion Sh as [i1 nm b Ei|i1 nm up es kids Ei F2]; subst.
  - assert (E' : fs' i = Some (NFile b)) by (rewrite O; [exact Ei|congruence]). inversion Sh' as [i2 nm' b' Ei'|i2 nm' up' es' kids' Ei' F2']; subst; [|congruence].
    rewrite E' in Ei'. injection Ei' as <-. constructor.
  - destruct (En [] i up es (inside_here _ _) Ei) as (u' & E'). inversion Sh' as [i2 nm' b' Ei'|i2 nm' up' es' kids' Ei' F2']; subst; [congruence|].
    rewrite E' in Ei'. injection Ei' as <- <-. apply same_dir with (ks' := kids'); [|apply Permutation_refl]. cbn [fsize] in L.
    assert (Sub : forall e, In e es -> exists c, find (fst e) es = Some c).
    { intros [y c] Hin. cbn [fst]. clear -Hin. induction es as [|[z d] es IHe]; [destruct Hin|]. cbn [find]. destruct (list_eq_dec _ _ _); [eauto|]. destruct Hin as [[= -> ->]|Hin]; [congruence|auto]. }
    assert (G : forall l ks ks', (forall e, In e l -> In e es) -> (fold_right Nat.add 0%nat (map fsize ks) < m)%nat ->
      Forall2 (fun e k => node_name k = fst e /\ exists lim j, walk lim true fs [fst e] i = Found j /\ shows fs j k) l ks ->
      Forall2 (fun e k => node_name k = fst e /\ exists lim j, walk lim true fs' [fst e] i = Found j /\ shows fs' j k) l ks' -> Forall2 same_content ks ks').
    { clear F2 F2' Sh Sh' L. intros l. induction l as [|e l IHl]; intros ks ks' Hin L G G'; inversion G as [|? k ? ks0 (_ & l1 & j & W & Sk) G0]; subst; inversion G' as [|? k' ? ks0' (_ & l1' & j' & W' & Sk') G0']; subst; constructor.
      - destruct (Sub e (Hin e (or_introl eq_refl))) as (c & F). destruct (S3 _ _ _ _ _ Ei F) as (Nx & _ & nn & Ec & _).
        assert (Nc : linkless fs c) by (intros ds d t Id; apply (N (fst e :: ds)); econstructor; eauto).
        assert (Ic : SubsSpec.inside fs i [fst e] c) by (econstructor; eauto; constructor).
        pose proof (linkless_walk fs S _ _ _ _ l1 N Ic Ec) as W0. assert (j = c) by congruence. subst j.
        assert (j' = c) as ->.
        { destruct (name_kind _ Nx) as [Ix Ux]. rewrite walk_cons, E', Ix, Ux, F in W'. destruct nn as [b|u e0|t].
          - rewrite (O c), Ec in W' by congruence. rewrite walk_nil in W'. congruence.
          - destruct (En _ _ _ _ Ic Ec) as (u1 & Ec'). rewrite Ec', walk_nil in W'. congruence.
          - exfalso. exact (Nc [] c t (inside_here _ _) Ec). }
        cbn [map fold_right] in L. apply (IH k c k'); [lia|exact Nc| |exact Sk|exact Sk']. intros cs a u ee Ia Ea. apply (En (fst e :: cs) a u ee); [econstructor; eauto|exact Ea].
      - cbn [map fold_right] in L. apply IHl; auto; [intros; apply Hin; now right|lia]. }
    apply (G es); auto. lia.
Qed.
Lemma fingerprint_moved text srt h lim fs cwd s newname n r i up es H : sorts srt -> sound fs -> bounded fs H -> (H <= h)%nat ->
  rename_any h lim fs cwd (file_path s) newname = (n, r) ->
  lstat lim fs cwd (file_path s) = Found i -> fs i = Some (NDir up es) -> lstat lim fs cwd n = Missing ->
  place_of lim (gone fs i) cwd (file_path s) <> None -> place_of lim (gone fs i) cwd n <> None -> ~ under fs i (begins cwd n) ->
  linkless fs i ->
  exists fs', r = Some fs' /\ exists fuel0, forall fuel, (fuel0 <= fuel)%nat -> exists a b,
    hash_links text srt fuel lim fs cwd (file_path s) = Ok (Some a) /\ hash_links text srt fuel lim fs' cwd n = Ok (Some b) /\
    fh_hash (hval a) = fh_hash (hval b) /\ fh_size (hval a) = fh_size (hval b) /\ fh_isdir (hval a) = fh_isdir (hval b).
Proof.
  intros Hs S B Hh E L Ei Ln P1 P2 U N. destruct (rename_dir_all _ _ _ _ _ _ _ _ _ _ _ _ S B Hh E L Ei Ln P1 P2 U) as (fs' & -> & S' & _ & SI & Lb & O & _ & _ & En & (H' & B')).
  exists fs'. split; [reflexivity|]. assert (Dn : n = file_path n) by (unfold rename_any in E; injection E as <- _; symmetry; apply relate_this_fix).
  destruct (En [] i up es (inside_here _ _) Ei) as (u' & Ei').
  assert (St : stat lim fs cwd (file_path s) = Found i) by (eapply WlinkProofs.lstat_stat; eauto; congruence).
  assert (St' : stat lim fs' cwd (file_path n) = Found i).
  { rewrite <- Dn. specialize (Lb [] i (inside_here _ _)). unfold below in Lb. cbn in Lb. rewrite app_nil_r in Lb. eapply WlinkProofs.lstat_stat; eauto; congruence. }
  assert (N' : linkless fs' i).
  { intros cs j t I Ej. apply SI in I. destruct (inside_node _ S _ _ _ _ Ei I) as (k & Ek). destruct k as [b|u e|t'].
    - rewrite (O j), Ek in Ej by congruence. discriminate.
    - destruct (En _ _ _ _ I Ek) as (u1 & Q). congruence.
    - exact (N _ _ _ I Ek). }
  destruct (linkless_hash text srt _ _ _ _ _ _ S B St N) as (f1 & A1). destruct (linkless_hash text srt _ _ _ _ _ _ S' B' St' N') as (f2 & A2).
  exists (Nat.max f1 f2). intros fuel Lf. destruct (A1 fuel ltac:(lia)) as (a & t & Ea & Sa & Ta). destruct (A2 fuel ltac:(lia)) as (b & t' & Eb & Sb & Tb). rewrite <- Dn in Eb, Tb.
  exists a, b. split; [exact Ea|]. split; [exact Eb|]. assert (SC : same_content t t') by (eapply shows_moved with (fs := fs) (fs' := fs') (m := Datatypes.S (fsize t)); eauto).
  pose proof (hash_same' text srt srt t t' (file_path s) n Hs Hs SC) as K. rewrite Ta, Tb in K. exact K.
Qed.
Lemma ex_rel_sound : sound ex_rel /\ bounded ex_rel 1.
Proof.
  split; [split; [eexists; reflexivity|split]|].
  - intros d up es E. destruct d as [|[|[|[|[|[|d]]]]]]; cbn in E; try discriminate; injection E as <- <-; cbn; eauto.
  - intros d up es x c E F. destruct d as [|[|[|[|[|[|d]]]]]]; cbn in E; try discriminate; injection E as <- <-; cbn in F;
      repeat (match type of F with context [list_eq_dec Z.eq_dec ?a ?b] => destruct (list_eq_dec Z.eq_dec a b) as [->|?] end); try discriminate; injection F as <-;
      (split; [repeat split; try discriminate; intros [K|K]; try discriminate; try destruct K; fail || (cbn; intuition congruence)|]); (split; [discriminate|]); eexists; (split; [reflexivity|]);
      intros up' es' [= <- <-]; (split; [reflexivity|]); intros y; cbn; repeat (destruct (list_eq_dec _ _ _)); congruence.
  - exists (fun d => match d with 0%nat => 0%nat | _ => 1%nat end). intros d up es E.
    destruct d as [|[|[|[|[|[|d]]]]]]; cbn in E; try discriminate; injection E as <- <-; (split; [lia|]); intros x c up' es' F Ec; cbn in F;
      repeat (match type of F with context [list_eq_dec Z.eq_dec ?a ?b] => destruct (list_eq_dec Z.eq_dec a b) end); try discriminate; injection F as <-; cbn in Ec; try discriminate; lia.
Qed.
Lemma fingerprint_moved_false : forall text, exists srt fs cwd me newname n fs' a b, sorts srt /\ sound fs /\ bounded fs 1 /\ me = file_path me /\
  lstat 40 fs cwd n = Missing /\ rename_any 1 40 fs cwd me newname = (n, Some fs') /\
  hash_links text srt 10 40 fs cwd me = Ok (Some a) /\ hash_links text srt 10 40 fs' cwd n = Ok (Some b) /\ fh_size (hval a) <> fh_size (hval b).
Proof.
  intros text. destruct ex_rel_sound as [A B]. exists isort, ex_rel, 0%nat, [47; 97], [100; 47; 122], [47; 100; 47; 122]. do 3 eexists. split; [exact isort_sorts|]. split; [exact A|]. split; [exact B|].
  split; [vm_compute; reflexivity|]. split; [vm_compute; reflexivity|]. split; [vm_compute; reflexivity|]. split; [vm_compute; reflexivity|]. split; [vm_compute; reflexivity|]. vm_compute. discriminate.
Qed.
Lemma ex_mv_linkless : linkless ex_mv 2.
Proof.
  intros cs j t I. inversion I as [|? up es x c xs ? E F I']; subst; [discriminate|]. cbn in E. injection E as <- <-. cbn in F. destruct (list_eq_dec _ _ _); [|discriminate]. injection F as <-.
  inversion I' as [|? up es x' c xs' ? E F I'']; subst; [discriminate|]. discriminate E.
Qed.
