(** Match on Windows: witnesses and examples. *)
From Coq Require Import ZArith List Bool Arith Lia.
From Verif Require Import GoBase GoStrings MatchSpec MatchModel MatchProofs MatchScan MatchMain MatchErr WmatchSpec WmatchModel WmatchProofs WmatchErr.
Import ListNotations.
Open Scope Z_scope.

Lemma wnoslash_in cs : ~ In 92 cs -> wnoslash cs.
Proof. intros N. apply Forall_forall. intros x I ->. exact (N I). Qed.
Lemma wmatch_path ps ts cs : wpattern ps ts -> text ps -> text cs -> ~ In 92 cs -> ascii cs \/ stars_anchored ts ->
  exists b, wfs_match (utf8 cs) (utf8 ps) = Ok (Some b) /\ (b = true <-> wmatches ts cs).
Proof. intros P TP TC N A. exact (wmatch_main _ ps ts cs P TP TC (Nat.le_refl _) (wnoslash_in _ N) A). Qed.
Lemma wmatch_star me : ~ In 92 me -> wfs_match me [42] = Ok (Some true).
Proof.
  intros N. unfold wfs_match. cbn. destruct (existsb (fun c => c =? 92) me) eqn:E; [|reflexivity].
  apply existsb_exists in E as (x & I & E). apply Z.eqb_eq in E. subst. contradiction.
Qed.
Lemma wmatches_lit ts cs : wmatches ts cs -> forall c, In (Lit c) ts -> In c cs.
Proof.
  induction 1 as [|ts cs M IH|d ts cs N M IH|d ts cs N M IH|d ts cs M IH|l d ts cs R M IH|l d ts cs R M IH]; intros c I.
  - destruct I.
  - destruct I as [E|I]; [discriminate|auto].
  - right. auto.
  - destruct I as [E|I]; [discriminate|right; auto].
  - destruct I as [E|I]; [left; congruence|right; auto].
  - destruct I as [E|I]; [discriminate|right; auto].
  - destruct I as [E|I]; [discriminate|right; auto].
Qed.
Lemma wmatch_backslash ps ts cs : wpattern ps ts -> text ps -> text cs -> ~ In 92 cs -> ascii cs \/ stars_anchored ts ->
  In (Lit 92) ts -> wfs_match (utf8 cs) (utf8 ps) = Ok (Some false).
Proof.
  intros P TP TC N A L. destruct (wmatch_path ps ts cs P TP TC N A) as (b & E & B). rewrite E. destruct b; [|reflexivity].
  exfalso. apply N. exact (wmatches_lit ts cs (proj1 B eq_refl) 92 L).
Qed.
Lemma wmatch_wrong :
  (exists ps ts cs, pattern ps ts /\ ~ In 92 ps /\ text ps /\ ascii cs /\ text cs /\ ~ In 92 cs /\
     wfs_match (utf8 cs) (utf8 ps) = Ok (Some true) /\ ~ matches ts cs) /\
  (exists ps ts cs, pattern ps ts /\ text ps /\ ascii cs /\ text cs /\ ~ In 92 cs /\
     wfs_match (utf8 cs) (utf8 ps) = Ok (Some false) /\ matches ts cs) /\
  (exists ps ts cs, wpattern ps ts /\ text ps /\ text cs /\ ~ In 92 cs /\
     wfs_match (utf8 cs) (utf8 ps) = Ok (Some true) /\ ~ wmatches ts cs).
Proof.
  split; [|split].
  - exists [42], [Star], [97; 47; 98]. split; [repeat constructor|]. split; [cbn; lia|]. split; [rn|]. split; [repeat constructor|]. split; [rn|].
    split; [cbn; lia|]. split; [reflexivity|]. intros M. inversion M as [|? ? M1|? ? ? _ M1| | | |]; subst; [inversion M1|].
    inversion M1 as [|? ? M2|? ? ? N M2| | | |]; subst; [inversion M2|congruence].
  - exists [92; 42], [Lit 42], [42]. split; [apply pt_escaped; constructor|]. split; [rn|]. split; [repeat constructor|]. split; [rn|].
    split; [cbn; lia|]. split; [reflexivity|]. constructor. constructor.
  - exists [42; 63; 63], [Star; Any; Any], [19990]. split; [repeat constructor|]. split; [rn|]. split; [rn|]. split; [cbn; lia|].
    split; [reflexivity|]. intros M. inversion M as [|? ? M1|? ? ? _ M1| | | |]; subst; inversion M1 as [|? ? M2|? ? ? _ M2|? ? ? _ M2| | |]; subst;
      inversion M2 as [| | |? ? ? _ M3| | |]; subst.
Qed.
Lemma wmatch_example :
  wpattern wex_pattern wex_terms /\ text wex_pattern /\ stars_anchored wex_terms /\
  wfs_match (utf8 wex_yes) (utf8 wex_pattern) = Ok (Some true) /\ wmatches wex_terms wex_yes /\
  wfs_match (utf8 wex_no) (utf8 wex_pattern) = Ok (Some false) /\ ~ wmatches wex_terms wex_no.
Proof.
  assert (P : wpattern wex_pattern wex_terms).
  { unfold wex_pattern, wex_terms. do 2 (constructor; try lia). apply (wpt_class [97; 45; 102] [(97, 102)] [42; 46; 103; 63]); [|discriminate|].
    - constructor. apply (wrg_two [97] 97 [102] 102); constructor; lia.
    - repeat (constructor; try lia). }
  assert (T : text wex_pattern) by rn. assert (TY : text wex_yes) by rn. assert (TN : text wex_no) by rn.
  assert (SA : stars_anchored wex_terms) by (cbn; auto).
  assert (EY : wfs_match (utf8 wex_yes) (utf8 wex_pattern) = Ok (Some true)) by reflexivity.
  assert (EN : wfs_match (utf8 wex_no) (utf8 wex_pattern) = Ok (Some false)) by reflexivity.
  destruct (wmatch_path _ _ wex_yes P T TY ltac:(cbn; lia) (or_intror SA)) as (b & B1 & B2).
  destruct (wmatch_path _ _ wex_no P T TN ltac:(cbn; lia) (or_intror SA)) as (b' & B1' & B2').
  rewrite EY in B1. rewrite EN in B1'. assert (b = true) by congruence. assert (b' = false) by congruence. subst.
  repeat split; auto.
  - now apply B2.
  - intros M. apply B2' in M. discriminate.
Qed.
Lemma wbad_unreported : exists ps name, text ps /\ (forall ts, ~ wpattern ps ts) /\ wfs_match name (utf8 ps) = Ok (Some false).
Proof.
  exists [97; 91], [98]. split; [rn|]. split; [|reflexivity]. intros ts P. inversion P; subst.
  match goal with H : wpattern [91] _ |- _ => inversion H; subst end; try congruence.
  all: match goal with H : ?b ++ 93 :: _ = [] |- _ => destruct b; discriminate end.
Qed.
