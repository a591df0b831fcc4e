(** Proofs about working directories in a file system with links. *)
From Coq Require Import ZArith List Bool Lia.
From Verif Require Import GoBase GoStrings PathSpec PathModel PathProofs LinkSpec LinkProofs LinkMore EvalProofs WorkModel WorkSpec WorkProofs CwdModel CwdSpec.
Import ListNotations.
Open Scope Z_scope.

Lemma root_dir fs : sound fs -> exists es, fs 0%nat = Some (NDir 0 es).
Proof. intros (R & _). exact R. Qed.
(** The walk along an absolute path is the walk along its names. *)
Lemma stat_abs lim fs cwd cs : sound fs -> Forall name cs -> stat lim fs cwd (abs_path cs) = walk lim true fs cs 0.
Proof.
  intros S H. destruct (root_dir fs S) as [es Er]. rewrite stat_ne' by (destruct cs; discriminate).
  rewrite begins_eq, is_rooted_abs, cut_eq. rewrite segs_abs by assumption. destruct cs as [|x cs].
  - rewrite walk_cons, Er. cbn [idle]. rewrite walk_cons, Er. cbn [idle]. reflexivity.
  - rewrite walk_cons, Er. reflexivity.
Qed.
Lemma stat_rel lim fs d l : l <> [] -> Forall flat l -> Forall (fun x => x <> []) l -> stat lim fs d (rel_path l) = walk lim true fs l d.
Proof.
  intros N F G. rewrite rel_path_join by exact N.
  assert (J : join_slash l <> []) by (intros J; apply join_nil in J; auto).
  rewrite stat_ne' by exact J. rewrite cut_eq, segments_join_flat by auto. rewrite begins_eq. destruct l as [|x l]; [congruence|].
  apply Forall_cons_iff in F as [Fx _]. apply Forall_cons_iff in G as [Gx _]. rewrite rooted_first by auto.
  destruct x as [|c x]; [congruence|]. cbn [is_rooted]. replace (c =? 47) with false; [reflexivity|]. symmetry. apply Z.eqb_neq. intros ->. apply Fx. now left.
Qed.
Lemma goes_app fs d l e : goes fs d l e -> forall r g, goes fs e r g -> goes fs d (l ++ r) g.
Proof.
  intros G r g H. revert d l G. induction H as [e|e r g x c H IH M N E]; intros d l G; [now rewrite app_nil_r|].
  rewrite app_assoc. eapply goes_snoc; eauto.
Qed.
Lemma goes_split fs r : forall l d g, goes fs d (l ++ r) g -> exists e, goes fs d l e /\ goes fs e r g.
Proof.
  induction r as [|x r IH] using rev_ind; intros l d g G; [rewrite app_nil_r in G; eauto using goes_nil|].
  rewrite app_assoc in G. pose proof G as G'. apply goes_inv in G as (e & G & M & N). destruct (IH _ _ _ G) as (c & A & B).
  exists c. split; auto. eapply goes_snoc; eauto. inversion G' as [d' E|d' l' e' x' c' G2 M2 N2 EX2]; subst; [destruct (l ++ r); discriminate|]. exact EX2.
Qed.
Lemma lies_goes fs cs d : sound fs -> (lies fs cs d <-> Forall name cs /\ goes fs 0 cs d /\ exists up es, fs d = Some (NDir up es)).
Proof.
  intros S. unfold lies. split; intros (H & G & D); (split; [exact H|split; [|exact D]]).
  - rewrite stat_abs in G by assumption. now apply walk0_goes.
  - rewrite stat_abs by assumption. now apply goes_walk.
Qed.
(** ** Walks stay below the root *)
Definition below (fs : fsys) (d : nat) : Prop := exists cs, Forall name cs /\ goes fs 0 cs d.
Lemma below_up fs d up es : sound fs -> fs d = Some (NDir up es) -> below fs d -> below fs up.
Proof.
  intros S E (cs & H & G). destruct cs as [|x cs _] using rev_ind.
  - inversion G as [|? l0]; subst; [|destruct l0; discriminate]. destruct (root_dir fs S) as [es' Er]. rewrite E in Er. injection Er as -> _. exists []. split; [auto|constructor].
  - apply goes_inv in G as (e & G & M & N). apply Forall_app in H as [H Hx]. apply Forall_cons_iff in Hx as [Hx _]. destruct (name_kind _ Hx) as [Ix Ux].
    unfold move in M. destruct (fs e) as [[|u ee|]|] eqn:Ee; try discriminate. rewrite Ix, Ux in M.
    destruct S as (_ & _ & S3). destruct (S3 _ _ _ _ _ Ee M) as (_ & _ & n & En & Hn). rewrite E in En. injection En as <-.
    destruct (Hn _ _ eq_refl) as [-> _]. exists cs. auto.
Qed.
Lemma walk_below fs : sound fs -> forall lim l d e, below fs d -> walk lim true fs l d = Found e -> below fs e.
Proof.
  intros S. induction lim as [|lim IH]; intros l; induction l as [|x l IHl]; intros d e B W; try (rewrite walk_nil in W; injection W as <-; exact B);
    rewrite walk_cons in W; destruct (fs d) as [[|up es|]|] eqn:Ed; try discriminate;
    (destruct (idle x) eqn:Ix; [now apply (IHl _ _ B W)|]); (destruct (upward x) eqn:Ux; [apply (IHl up e); [eapply below_up; eauto|exact W]|]);
    (destruct (find x es) as [c|] eqn:F; [|discriminate]).
  - assert (C : forall k, fs c = Some k -> (forall t, k <> NLink t) -> below fs c).
    { intros k Ek Nk. destruct B as (cs & H & G). exists (cs ++ [x]). destruct S as (_ & _ & S3). destruct (S3 _ _ _ _ _ Ed F) as (Nx & _).
      split; [apply Forall_app; auto|]. eapply goes_snoc; eauto; [unfold move; now rewrite Ed, Ix, Ux|intros t; rewrite Ek; intros [= ->]; now apply (Nk t)]. }
    destruct (fs c) as [[b|u ee|t]|] eqn:Ec; try discriminate.
    + apply (IHl c e); [eapply C; [reflexivity|discriminate]|exact W].
    + apply (IHl c e); [eapply C; [reflexivity|discriminate]|exact W].
    + unfold hop in W. destruct l, t; discriminate.
  - assert (C : forall k, fs c = Some k -> (forall t, k <> NLink t) -> below fs c).
    { intros k Ek Nk. destruct B as (cs & H & G). exists (cs ++ [x]). destruct S as (_ & _ & S3). destruct (S3 _ _ _ _ _ Ed F) as (Nx & _).
      split; [apply Forall_app; auto|]. eapply goes_snoc; eauto; [unfold move; now rewrite Ed, Ix, Ux|intros t; rewrite Ek; intros [= ->]; now apply (Nk t)]. }
    destruct (fs c) as [[b|u ee|t]|] eqn:Ec; try discriminate.
    + apply (IHl c e); [eapply C; [reflexivity|discriminate]|exact W].
    + apply (IHl c e); [eapply C; [reflexivity|discriminate]|exact W].
    + assert (W' : match t with [] => Missing | _ => walk lim true fs (cut [] t ++ l) (begins d t) end = Found e) by (unfold hop in W; destruct l; exact W).
      destruct t as [|b t]; [discriminate|]. apply (IH _ _ _) in W'; auto. rewrite begins_eq. destruct (is_rooted (b :: t)); [exists []; split; [auto|constructor]|exact B].
Qed.
Lemma chdir_lies o cwd cs p c : sound (o_fs o) -> lies (o_fs o) cs cwd -> chdir_links o cwd p = Some c -> exists ds, lies (o_fs o) ds c.
Proof.
  intros S L E. unfold chdir_links in E. destruct (stat _ _ _ _) as [i| | |] eqn:W; try discriminate. destruct (o_fs o i) as [[|u es|]|] eqn:Ei; try discriminate.
  injection E as <-. apply lies_goes in L as (H & G & _); auto. destruct p as [|b p]; [discriminate|]. cbn [stat] in W.
  assert (B : below (o_fs o) i).
  { eapply walk_below; eauto. rewrite begins_eq. destruct (is_rooted _); [exists []; split; [auto|constructor]|exists cs; auto]. }
  destruct B as (ds & Hd & Gd). exists ds. apply lies_goes; auto. split; [auto|split; [auto|eauto]].
Qed.
(** ** WorkPath *)
(** A text that leads to a directory wherever one is. *)
Definition arrives (o : outer) (c : nat) (q : list Z) : Prop := exists t, q = 47 :: t /\ forall d, stat (o_lim o) (o_fs o) d q = Found c.
Lemma rooted_text q : is_rooted q = true -> exists t, q = 47 :: t.
Proof. destruct q as [|c q]; [discriminate|]. cbn. intros E. apply Z.eqb_eq in E. subst. eauto. Qed.
Lemma work_path_ok o cs c : sound (o_fs o) -> proper o -> lies (o_fs o) cs c -> exists q, work_path_links o c = Ok q /\ arrives o c q.
Proof.
  intros S (P1 & P2) L. unfold work_path_links, getwd_links.
  destruct (is_rooted (o_pwd o)) eqn:R; cbn [andb].
  - destruct (stat (o_lim o) (o_fs o) c (o_pwd o)) as [i| | |] eqn:W.
    1: destruct (Nat.eqb i c) eqn:Q.
    1: { apply Nat.eqb_eq in Q. subst i. eexists. split; [reflexivity|]. destruct (rooted_text _ R) as [t Et]. exists t. split; [exact Et|].
         intros d. rewrite <- W. now apply stat_absolute. }
    all: destruct (o_getcwd o c) as [p|] eqn:K; [|exfalso; eapply P2; eauto]; destruct (P1 _ _ K) as (ds & -> & Hd & Sd & _);
      eexists; (split; [reflexivity|]); destruct (rooted_text _ (is_rooted_abs ds)) as [t Et]; exists t; (split; [exact Et|]); intros d; rewrite (stat_absolute _ _ d 0) by apply is_rooted_abs;
      rewrite stat_abs in Sd |- * by assumption; eapply walk_le; eauto; lia.
  - destruct (o_getcwd o c) as [p|] eqn:K; [|exfalso; eapply P2; eauto]; destruct (P1 _ _ K) as (ds & -> & Hd & Sd & _).
    eexists; (split; [reflexivity|]); destruct (rooted_text _ (is_rooted_abs ds)) as [t Et]; exists t; (split; [exact Et|]); intros d; rewrite (stat_absolute _ _ d 0) by apply is_rooted_abs.
    rewrite stat_abs in Sd |- * by assumption; eapply walk_le; eauto; lia.
Qed.
Definition linv (o : outer) (w : lwork) : Prop := exists cs, lies (o_fs o) cs (lk_cwd w).
Lemma lstep_ok o w op : sound (o_fs o) -> proper o -> linv o w -> exists w' b, lwork_step o w op = Ok (w', b) /\ linv o w'.
Proof.
  intros S P (cs & L). destruct op as [p|p| |p|]; cbn [lwork_step].
  - destruct (chdir_links o (lk_cwd w) (file_path p)) as [c|] eqn:E; [|eexists _, _; split; [reflexivity|exists cs; exact L]].
    destruct (chdir_lies _ _ _ _ _ S L E) as (ds & Ld). destruct (work_path_ok o ds c S P Ld) as (q & -> & _). cbn [bind]. eexists _, _. split; [reflexivity|]. exists ds. exact Ld.
  - destruct (chdir_links o (lk_cwd w) p) as [c|] eqn:E; [|eexists _, _; split; [reflexivity|exists cs; exact L]].
    destruct (chdir_lies _ _ _ _ _ S L E) as (ds & Ld). eexists _, _. split; [reflexivity|]. exists ds. exact Ld.
  - eexists _, _. split; [reflexivity|exists cs; exact L].
  - eexists _, _. split; [reflexivity|exists cs; exact L].
  - destruct (work_path_ok o cs _ S P L) as (q & -> & _). cbn [bind]. eexists _, _. split; [reflexivity|exists cs; exact L].
Qed.
Lemma lrun_ok o : sound (o_fs o) -> proper o -> forall ops w, linv o w -> exists w' obs, run_ops (lwork_step o) w ops = Ok (w', obs) /\ linv o w'.
Proof.
  intros S P. induction ops as [|op ops IH]; intros w L; [eexists _, _; split; [reflexivity|exact L]|]. cbn [run_ops].
  destruct (lstep_ok o w op S P L) as (w1 & b & -> & L1). cbn [bind]. destruct (IH _ L1) as (w2 & obs & -> & L2). cbn [bind]. eexists _, _. split; [reflexivity|exact L2].
Qed.
Lemma linit_ok o c cs : sound (o_fs o) -> proper o -> lies (o_fs o) cs c -> exists w, lwork_init o c = Ok w /\ lk_cwd w = c /\ arrives o c (lk_cached w).
Proof. intros S P L. unfold lwork_init. destruct (work_path_ok o cs c S P L) as (q & -> & A). cbn [bind]. eexists. split; [reflexivity|]. auto. Qed.
Lemma own_step o w op w' b : sound (o_fs o) -> proper o -> linv o w -> own_chdir op -> arrives o (lk_cwd w) (lk_cached w) ->
  lwork_step o w op = Ok (w', b) -> arrives o (lk_cwd w') (lk_cached w').
Proof.
  intros S P (cs & L) O A E. destruct op as [p|p| |p|]; cbn [lwork_step own_chdir] in *; try contradiction; try (injection E as <- _; exact A).
  - destruct (chdir_links o (lk_cwd w) (file_path p)) as [c|] eqn:C; [|injection E as <- _; exact A].
    destruct (chdir_lies _ _ _ _ _ S L C) as (ds & Ld). destruct (work_path_ok o ds c S P Ld) as (q & Eq & B). rewrite Eq in E. cbn [bind] in E. injection E as <- _. exact B.
  - destruct (work_path_ok o cs _ S P L) as (q & Eq & B). rewrite Eq in E. cbn [bind] in E. injection E as <- _. exact A.
Qed.
Lemma own_run o : sound (o_fs o) -> proper o -> forall ops w w' obs, linv o w -> Forall own_chdir ops -> arrives o (lk_cwd w) (lk_cached w) ->
  run_ops (lwork_step o) w ops = Ok (w', obs) -> arrives o (lk_cwd w') (lk_cached w').
Proof.
  intros S P. induction ops as [|op ops IH]; intros w w' obs L F A E; [injection E as <- _; exact A|]. cbn [run_ops] in E.
  apply Forall_cons_iff in F as [Fo F]. destruct (lstep_ok o w op S P L) as (w1 & b & E1 & L1). rewrite E1 in E. cbn [bind] in E.
  destruct (lrun_ok o S P ops _ L1) as (w2 & obs2 & E2 & _). rewrite E2 in E. cbn [bind] in E. injection E as <- _.
  exact (IH w1 _ _ L1 F (own_step o w op w1 b S P L Fo A E1) E2).
Qed.
Lemma never_panics o c cs ops : sound (o_fs o) -> proper o -> lies (o_fs o) cs c ->
  exists w0 w obs, lwork_init o c = Ok w0 /\ run_ops (lwork_step o) w0 ops = Ok (w, obs).
Proof.
  intros S P L. destruct (linit_ok o c cs S P L) as (w0 & E & Ec & _). destruct (lrun_ok o S P ops w0) as (w & obs & R & _); [exists cs; now rewrite Ec|]. eauto.
Qed.
Lemma work_leads o c cs ops w0 w obs : sound (o_fs o) -> proper o -> lies (o_fs o) cs c -> lwork_init o c = Ok w0 -> Forall own_chdir ops ->
  run_ops (lwork_step o) w0 ops = Ok (w, obs) -> exists t, lwork_step o w WWork = Ok (w, WPath (47 :: t)) /\ forall d, stat (o_lim o) (o_fs o) d (47 :: t) = Found (lk_cwd w).
Proof.
  intros S P L E F R. destruct (linit_ok o c cs S P L) as (w1 & E1 & Ec & A). rewrite E in E1. injection E1 as <-.
  destruct (own_run o S P ops w0 w obs) as (t & Et & H); auto; [exists cs; now rewrite Ec|now rewrite Ec|].
  exists t. cbn [lwork_step]. rewrite <- Et. auto.
Qed.
Lemma work_leads_again o c cs ops1 w0 w1 obs1 p ops2 w2 obs2 : sound (o_fs o) -> proper o -> lies (o_fs o) cs c -> lwork_init o c = Ok w0 ->
  run_ops (lwork_step o) w0 ops1 = Ok (w1, obs1) -> run_ops (lwork_step o) w1 (WChdir p :: ops2) = Ok (w2, WErr false :: obs2) -> Forall own_chdir ops2 ->
  exists t, lwork_step o w2 WWork = Ok (w2, WPath (47 :: t)) /\ forall d, stat (o_lim o) (o_fs o) d (47 :: t) = Found (lk_cwd w2).
Proof.
  intros S P L E R1 R2 F. destruct (linit_ok o c cs S P L) as (w' & E1 & Ec & _). rewrite E in E1. injection E1 as <-.
  destruct (lrun_ok o S P ops1 w0) as (w1' & o1 & R1' & (ds & L1)); [exists cs; now rewrite Ec|]. rewrite R1 in R1'. injection R1' as <- _.
  cbn [run_ops lwork_step] in R2. destruct (chdir_links o (lk_cwd w1) (file_path p)) as [c1|] eqn:C.
  - destruct (chdir_lies _ _ _ _ _ S L1 C) as (ds1 & Ld). destruct (work_path_ok o ds1 c1 S P Ld) as (q & Eq & B). rewrite Eq in R2. cbn [bind] in R2.
    destruct (run_ops (lwork_step o) (LWork c1 q) ops2) as [[w3 o3]| |] eqn:R3; cbn [bind] in R2; try discriminate. injection R2 as <- _.
    destruct (own_run o S P ops2 (LWork c1 q) w3 o3) as (t & Et & H); auto; [exists ds1; exact Ld|].
    exists t. cbn [lwork_step]. rewrite <- Et. auto.
  - cbn [bind] in R2. destruct (run_ops (lwork_step o) w1 ops2) as [[w3 o3]| |]; cbn [bind] in R2; discriminate.
Qed.
(** ** RelateWorkPath *)
Lemma walk_ups lim fs : sound fs -> forall b e d r, Forall name b -> goes fs e b d -> walk lim true fs (repeat dd (length b) ++ r) d = walk lim true fs r e \/ (b <> [] /\ forall u es, fs d <> Some (NDir u es)).
Proof.
  intros S. induction b as [|x b IH] using rev_ind; intros e d r H G.
  - inversion G as [|? l0]; subst; [|destruct l0; discriminate]. left. reflexivity.
  - apply goes_inv in G as (c & G & M & N). apply Forall_app in H as [H Hx]. apply Forall_cons_iff in Hx as [Hx _]. destruct (name_kind _ Hx) as [Ix Ux].
    destruct (fs d) as [[|up es|]|] eqn:Ed; try (right; split; [destruct b; discriminate|congruence]). left.
    unfold move in M. destruct (fs c) as [[|u ee|]|] eqn:Ec; try discriminate. rewrite Ix, Ux in M.
    pose proof S as (_ & _ & S3). destruct (S3 _ _ _ _ _ Ec M) as (_ & _ & n & En & Hn). rewrite Ed in En. injection En as <-. destruct (Hn _ _ eq_refl) as [-> _].
    rewrite app_length, Nat.add_comm. cbn [length Nat.add repeat app]. rewrite walk_cons, Ed. change (idle dd) with false. change (upward dd) with true. cbn iota.
    destruct (IH _ _ r H G) as [->|(_ & B)]; [reflexivity|exfalso; eapply B; eauto].
Qed.
Lemma names_parts l : Forall name l -> Forall flat l /\ Forall (fun x => x <> []) l.
Proof. intros H. split; (eapply Forall_impl; [|exact H]); intros x Hx; apply Hx. Qed.
Lemma relate_abs_text cs ds : Forall name cs -> Forall name ds -> exists c b t, cs = c ++ b /\ ds = c ++ t /\
  rel_or_dot (abs_path cs) (abs_path ds) = rel_path (repeat dd (length b) ++ t).
Proof.
  intros Hc Hd. unfold rel_or_dot, fp_rel. change (clean (abs_path cs)) with (file_path (abs_path cs)). change (clean (abs_path ds)) with (file_path (abs_path ds)).
  rewrite !file_path_fix_abs by assumption. rewrite !is_rooted_abs. cbn [xorb]. rewrite !elements_abs by assumption.
  destruct (str_eqb (abs_path ds) (abs_path cs)) eqn:E.
  { apply str_eqb_eq in E. assert (ds = cs) by (rewrite <- (elements_abs ds Hd), E; now apply elements_abs). subst ds.
    exists cs, [], []. rewrite app_nil_r. auto. }
  destruct (drop_common cs ds) as [b t] eqn:D. apply drop_common_spec in D as (c & Eb & Et). exists c, b, t. split; [exact Eb|split; [exact Et|]].
  assert (Hb : Forall name b) by (rewrite Eb in Hc; now apply Forall_app in Hc). assert (Ht : Forall name t) by (rewrite Et in Hd; now apply Forall_app in Hd).
  destruct b as [|x b].
  - cbn [length repeat app]. destruct t as [|y t]; [exfalso; rewrite app_nil_r in *; subst; assert (Y : str_eqb (abs_path c) (abs_path c) = true) by (now apply str_eqb_eq); congruence|].
    rewrite <- rel_path_join by discriminate. apply (rel_fix 0). exact Ht.
  - pose proof Hb as Hb0. apply Forall_cons_iff in Hb0 as [Hx _].
    destruct (str_eqb x [46; 46]) eqn:Ex; [apply str_eqb_eq in Ex; destruct Hx as (_ & _ & Hx & _); congruence|].
    rewrite map_const. rewrite <- rel_path_join by (cbn; discriminate). apply rel_fix. exact Ht.
Qed.
Lemma relate_same fs d p q t lim : sound fs -> stat 0 fs 0 p = Found d -> (exists up es, fs d = Some (NDir up es)) -> is_rooted p = true -> q = 47 :: t ->
  stat lim fs d (rel_or_dot p (file_path q)) = stat lim fs d (file_path q).
Proof.
  intros S E (up & es & D) R ->. apply stat0_clean in E; auto.
  assert (X : rel_or_dot p (file_path (47 :: t)) = rel_or_dot (file_path p) (file_path (47 :: t))).
  { unfold rel_or_dot, fp_rel. rewrite (clean_idem p : clean (file_path p) = clean p). reflexivity. }
  rewrite X. clear X. destruct (clean_form p) as [(_ & cs & Hc & Ep & _)|(R' & _)]; [|congruence].
  destruct (clean_form (47 :: t)) as [(_ & ds & Hd & Eq & _)|(R' & _)]; [|discriminate].
  unfold file_path in *. rewrite Ep, Eq in *. rewrite stat_abs in E by assumption. apply walk0_goes in E; [|exact S].
  destruct (relate_abs_text cs ds Hc Hd) as (c & b & t' & -> & -> & ->). rewrite stat_abs by assumption.
  destruct (goes_split _ _ _ _ _ E) as (e & G1 & G2). rewrite (walk_goes _ _ _ _ _ _ G1).
  apply Forall_app in Hc as [_ Hb]. apply Forall_app in Hd as [_ Ht].
  destruct (repeat dd (length b) ++ t') as [|y l] eqn:L.
  - destruct b; [|discriminate]. destruct t'; [|discriminate]. inversion G2 as [|? l0]; subst; [|destruct l0; discriminate].
    change (stat lim fs d [46] = walk lim true fs [] d). rewrite walk_nil. unfold stat. cbn [cut begins]. destruct (Z.eq_dec 46 47); [discriminate|]. cbn [app cut].
    rewrite walk_cons, D. cbn. apply walk_nil.
  - rewrite <- L. rewrite stat_rel.
    + destruct (walk_ups lim fs S b e d t' Hb G2) as [K|(_ & K)]; [exact K|exfalso; eapply K; eauto].
    + rewrite L. discriminate.
    + apply Forall_app. split; [apply Forall_forall; intros z Hz; apply repeat_spec in Hz; subst z; apply dd_flat|apply names_parts; exact Ht].
    + apply Forall_app. split; [apply Forall_forall; intros z Hz; apply repeat_spec in Hz; subst z; discriminate|apply names_parts; exact Ht].
Qed.
Lemma relate_links o c cs ops w0 w obs p q t : sound (o_fs o) -> proper o -> lies (o_fs o) cs c -> lwork_init o c = Ok w0 -> Forall own_chdir ops ->
  run_ops (lwork_step o) w0 ops = Ok (w, obs) -> lwork_step o w WWork = Ok (w, WPath p) -> stat 0 (o_fs o) 0 p = Found (lk_cwd w) -> q = 47 :: t ->
  exists r, lwork_step o w (WRelate q) = Ok (w, WPath r) /\ forall lim, stat lim (o_fs o) (lk_cwd w) r = stat lim (o_fs o) (lk_cwd w) (file_path q).
Proof.
  intros S P L E F R W Z Q. destruct (work_leads o c cs ops w0 w obs S P L E F R) as (u & W' & _). rewrite W in W'. injection W' as ->.
  cbn [lwork_step] in W. injection W as Wc. cbn [lwork_step]. eexists. split; [reflexivity|]. intros lim.
  destruct (linit_ok o c cs S P L) as (w1 & E1 & Ec & _). rewrite E in E1. injection E1 as <-.
  destruct (lrun_ok o S P ops w0) as (w2 & o2 & R2 & (ds & _ & _ & D)); [exists cs; now rewrite Ec|]. rewrite R in R2. injection R2 as <- _.
  rewrite Wc. eapply relate_same; eauto.
Qed.
Lemma relate_links_same o c cs ops w0 w obs p q t j : sound (o_fs o) -> proper o -> lies (o_fs o) cs c -> lwork_init o c = Ok w0 -> Forall own_chdir ops ->
  run_ops (lwork_step o) w0 ops = Ok (w, obs) -> lwork_step o w WWork = Ok (w, WPath p) -> stat 0 (o_fs o) 0 p = Found (lk_cwd w) -> q = 47 :: t ->
  straight (o_fs o) 0 (cut [] q) -> stat (o_lim o) (o_fs o) (lk_cwd w) q = Found j ->
  exists r, lwork_step o w (WRelate q) = Ok (w, WPath r) /\ stat (o_lim o) (o_fs o) (lk_cwd w) r = Found j.
Proof.
  intros S P L E F R W Z Q T J. destruct (relate_links o c cs ops w0 w obs p q t S P L E F R W Z Q) as (r & Er & H). exists r. split; [exact Er|].
  rewrite H. apply same_file; auto. subst q. exact T.
Qed.
(** getcwd(2) gives no link, so WorkPath has none if PWD is not what leads there. *)
Lemma no_pwd o cs c q : sound (o_fs o) -> proper o -> lies (o_fs o) cs c -> stat (o_lim o) (o_fs o) 0 (o_pwd o) <> Found c ->
  work_path_links o c = Ok q -> stat 0 (o_fs o) 0 q = Found c.
Proof.
  intros S (P1 & _) L N W. unfold work_path_links, getwd_links in W. destruct (is_rooted (o_pwd o)) eqn:R; cbn [andb] in W.
  - rewrite (stat_absolute _ _ c 0) in W by exact R. destruct (stat (o_lim o) (o_fs o) 0 (o_pwd o)) as [i| | |] eqn:E.
    1: destruct (Nat.eqb i c) eqn:Q; [apply Nat.eqb_eq in Q; congruence|].
    all: destruct (o_getcwd o c) as [p|] eqn:K; [|discriminate]; injection W as <-; destruct (P1 _ _ K) as (ds & -> & _ & Sd & _); exact Sd.
  - destruct (o_getcwd o c) as [p|] eqn:K; [|discriminate]; injection W as <-; destruct (P1 _ _ K) as (ds & -> & _ & Sd & _); exact Sd.
Qed.
Lemma fresh_run o : forall ops w w' obs, Forall own_chdir ops -> work_path_links o (lk_cwd w) = Ok (lk_cached w) ->
  run_ops (lwork_step o) w ops = Ok (w', obs) -> work_path_links o (lk_cwd w') = Ok (lk_cached w').
Proof.
  induction ops as [|op ops IH]; intros w w' obs F A E; [injection E as <- _; exact A|]. cbn [run_ops] in E. apply Forall_cons_iff in F as [Fo F].
  destruct (lwork_step o w op) as [[w1 b]| |] eqn:E1; cbn [bind] in E; try discriminate.
  destruct (run_ops (lwork_step o) w1 ops) as [[w2 o2]| |] eqn:E2; cbn [bind] in E; try discriminate. injection E as <- _.
  apply (IH w1 w2 o2 F); [|exact E2]. clear IH E2. destruct op as [p|p| |p|]; cbn [lwork_step own_chdir] in *; try contradiction; try (injection E1 as <- _; exact A).
  - destruct (chdir_links o (lk_cwd w) (file_path p)) as [c|]; [|injection E1 as <- _; exact A].
    destruct (work_path_links o c) as [q| |] eqn:Q; cbn [bind] in E1; try discriminate. injection E1 as <- _. exact Q.
  - rewrite A in E1. cbn [bind] in E1. injection E1 as <- _. exact A.
Qed.
Lemma relate_elsewhere o c cs ops w0 w obs q t : sound (o_fs o) -> proper o -> lies (o_fs o) cs c -> lwork_init o c = Ok w0 -> Forall own_chdir ops ->
  run_ops (lwork_step o) w0 ops = Ok (w, obs) -> stat (o_lim o) (o_fs o) 0 (o_pwd o) <> Found (lk_cwd w) -> q = 47 :: t ->
  exists r, lwork_step o w (WRelate q) = Ok (w, WPath r) /\ forall lim, stat lim (o_fs o) (lk_cwd w) r = stat lim (o_fs o) (lk_cwd w) (file_path q).
Proof.
  intros S P L E F R N Q. apply (relate_links o c cs ops w0 w obs (lk_cached w) q t S P L E F R eq_refl); [|exact Q].
  destruct (linit_ok o c cs S P L) as (w1 & E1 & Ec & _). rewrite E in E1. injection E1 as <-.
  destruct (lrun_ok o S P ops w0) as (w2 & o2 & R2 & (ds & Ld)); [exists cs; now rewrite Ec|]. rewrite R in R2. injection R2 as <- _.
  apply (no_pwd o ds); auto. eapply fresh_run; eauto. unfold lwork_init in E. destruct (work_path_links o c) as [q0| |] eqn:Q0; cbn [bind] in E; try discriminate.
  injection E as <-. exact Q0.
Qed.
(** ** Chdir *)
Lemma chdir_same o cs w p d : sound (o_fs o) -> proper o -> lies (o_fs o) cs (lk_cwd w) -> straight (o_fs o) (begins (lk_cwd w) p) (cut [] p) ->
  lwork_step o w (WOsChdir p) = Ok (d, WErr false) -> exists q, lwork_step o w (WChdir p) = Ok (LWork (lk_cwd d) q, WErr false).
Proof.
  intros S P L T E. cbn [lwork_step] in *. destruct (chdir_links o (lk_cwd w) p) as [c|] eqn:C; [|discriminate]. injection E as <-. cbn [lk_cwd].
  pose proof (chdir_lies _ _ _ _ _ S L C) as (ds & Ld). unfold chdir_links in C |- *.
  destruct (stat (o_lim o) (o_fs o) (lk_cwd w) p) as [i| | |] eqn:W; try discriminate. rewrite (same_file _ _ _ _ _ S W T).
  destruct (o_fs o i) as [[|u e|]|]; try discriminate. injection C as <-. destruct (work_path_ok o ds i S P Ld) as (q & -> & _). cbn [bind]. eauto.
Qed.
(** ** Cases *)
Lemma sound_cwd : sound ex_cwd_fs.
Proof.
  split; [eexists; reflexivity|]. split.
  - intros d up es E. destruct d as [|[|[|[|[|[|[|d]]]]]]]; cbn in E; try discriminate; injection E as <- _; cbn; eauto.
  - intros d up es x c E F. destruct d as [|[|[|[|[|[|[|d]]]]]]]; cbn in E; try discriminate; injection E as <- <-; cbn in F;
      repeat (destruct (list_eq_dec Z.eq_dec x _) as [->|] in F; [injection F as <-; (split; [split; [discriminate|split; [discriminate|split; [discriminate|cbn; intuition discriminate]]]|]);
        (split; [discriminate|]); eexists; (split; [reflexivity|]); intros u e [= <- <-]; (split; [reflexivity|]); intros y Hy; cbn in Hy;
        repeat (destruct (list_eq_dec Z.eq_dec y _) as [->|] in Hy; [try reflexivity; discriminate|]); discriminate|]); discriminate.
Qed.
Lemma proper_cwd pwd : proper (ex_outer pwd).
Proof.
  assert (Na : forall c, c <> 46 -> c <> 47 -> name [c]) by (intros c A B; repeat split; try congruence; intros [|[]]; congruence).
  split.
  - intros d p E. destruct d as [|[|[|[|d]]]]; cbn in E; try discriminate; injection E as <-.
    + exists []. split; [reflexivity|]. split; [constructor|]. split; [reflexivity|cbn; eauto].
    + exists [[97]]. split; [reflexivity|]. split; [repeat constructor; apply Na; discriminate|]. split; [reflexivity|cbn; eauto].
    + exists [[97]; [98]]. split; [reflexivity|]. split; [repeat (constructor; [apply Na; discriminate|]); constructor|]. split; [reflexivity|cbn; eauto].
    + exists [[97]; [98]; [99]]. split; [reflexivity|]. split; [repeat (constructor; [apply Na; discriminate|]); constructor|]. split; [reflexivity|cbn; eauto].
  - intros d cs (_ & _ & up & es & E). destruct d as [|[|[|[|[|[|[|d]]]]]]]; cbn in E; try discriminate; discriminate.
Qed.
Lemma lies_cwd : lies ex_cwd_fs [[97]; [98]] 2.
Proof.
  assert (Na : forall c, c <> 46 -> c <> 47 -> name [c]) by (intros c A B; repeat split; try congruence; intros [|[]]; congruence).
  split; [repeat (constructor; [apply Na; discriminate|]); constructor|]. split; [reflexivity|cbn; eauto].
Qed.
Lemma relate_wrong : exists o c cs w q r i j, sound (o_fs o) /\ proper o /\ lies (o_fs o) cs c /\ lwork_init o c = Ok w /\
  lwork_step o w (WRelate (47 :: q)) = Ok (w, WPath r) /\ stat (o_lim o) (o_fs o) c (47 :: q) = Found i /\ stat (o_lim o) (o_fs o) c r = Found j /\ i <> j.
Proof.
  exists (ex_outer [47; 108]), 2%nat, [[97]; [98]], (LWork 2 [47; 108]), [120], [46; 46; 47; 120], 6%nat, 5%nat.
  split; [exact sound_cwd|]. split; [apply proper_cwd|]. split; [exact lies_cwd|]. repeat split; try reflexivity. discriminate.
Qed.
Lemma chdir_wrong : exists o cs w p d e q, sound (o_fs o) /\ proper o /\ lies (o_fs o) cs (lk_cwd w) /\
  lwork_step o w (WOsChdir p) = Ok (d, WErr false) /\ lwork_step o w (WChdir p) = Ok (LWork e q, WErr false) /\ e <> lk_cwd d.
Proof.
  exists (ex_outer []), [[97]; [98]], (LWork 2 [47; 97; 47; 98]), [47; 108; 47; 46; 46], (LWork 1 [47; 97; 47; 98]), 0%nat, [47].
  split; [exact sound_cwd|]. split; [apply proper_cwd|]. split; [exact lies_cwd|]. repeat split; try reflexivity. discriminate.
Qed.
Lemma cwd_ex : sound (o_fs (ex_outer [47; 108])) /\ proper (ex_outer [47; 108]) /\ lies (o_fs (ex_outer [47; 108])) [[97]; [98]] 2 /\
  lwork_init (ex_outer [47; 108]) 2 = Ok (LWork 2 [47; 108]) /\
  run_ops (lwork_step (ex_outer [47; 108])) (LWork 2 [47; 108]) [WChdir [99; 47]; WWork; WOsChdir [46; 46; 47; 46; 46]; WWork; WGetwd; WChdir [47; 108; 47; 46]; WWork; WChdir [120]] =
  Ok (LWork 2 [47; 108], [WErr false; WPath [47; 97; 47; 98; 47; 99]; WErr false; WPath [47; 97; 47; 98; 47; 99]; WPath [47; 97]; WErr false; WPath [47; 108]; WErr true]).
Proof. split; [exact sound_cwd|]. split; [apply proper_cwd|]. split; [exact lies_cwd|]. split; reflexivity. Qed.
Lemma relate_ex : run_ops (lwork_step (ex_outer [])) (LWork 2 [47; 97; 47; 98]) [WChdir [99]; WRelate [47; 120]; WRelate [47; 108; 47; 99]] =
  Ok (LWork 3 [47; 97; 47; 98; 47; 99], [WErr false; WPath [46; 46; 47; 46; 46; 47; 46; 46; 47; 120]; WPath [46; 46; 47; 46; 46; 47; 46; 46; 47; 108; 47; 99]]) /\
  stat 40 ex_cwd_fs 3 [46; 46; 47; 46; 46; 47; 46; 46; 47; 120] = Found 6 /\ stat 40 ex_cwd_fs 3 [46; 46; 47; 46; 46; 47; 46; 46; 47; 108; 47; 99] = Found 3.
Proof. repeat split; reflexivity. Qed.
Lemma chdir_ex : straight ex_cwd_fs 0 (cut [] [47; 97; 47; 98; 47; 46; 46; 47; 47; 98]) /\
  lwork_step (ex_outer []) (LWork 3 [47]) (WOsChdir [47; 97; 47; 98; 47; 46; 46; 47; 47; 98]) = Ok (LWork 2 [47], WErr false) /\
  lwork_step (ex_outer []) (LWork 3 [47]) (WChdir [47; 97; 47; 98; 47; 46; 46; 47; 47; 98]) = Ok (LWork 2 [47; 97; 47; 98], WErr false).
Proof.
  split; [|split; reflexivity]. apply (goes_straight' _ _ _ 2). apply walk0_goes; [exact sound_cwd|reflexivity].
Qed.
