(** C210, C211: matching paths with patterns. *)
From Coq Require Import ZArith List Bool Arith Lia.
From Verif Require Import GoBase GoStrings MatchSpec MatchProofs MatchScan MatchMain MatchErr MatchBad MatchModel.
Import ListNotations.
Open Scope Z_scope.

(** C210: for a well-formed pattern, Match tells whether the path is one of the texts the pattern stands for. Proved for
    classes that do not contain the separator, and for paths of ASCII characters or stars that are followed by written-out
    characters; false in general. *)
Theorem C210_match_partial : forall ps ts cs,
  pattern ps ts -> text ps -> text cs -> Forall slash_free ts -> ascii cs \/ stars_anchored ts ->
  exists b, fs_match (utf8 cs) (utf8 ps) = Ok (Some b) /\ (b = true <-> matches ts cs).
Proof. intros ps ts cs P TP TC SF A. exact (match_main (length (utf8 ps)) ps ts cs P TP TC (Nat.le_refl _) SF A). Qed.
Print Assumptions C210_match_partial.

(** A star may skip a part of a character; and what follows a star is not tried again behind a later separator. *)
Theorem C210_match_refuted :
  (exists ps ts cs, pattern ps ts /\ text ps /\ text cs /\ Forall slash_free ts /\
     fs_match (utf8 cs) (utf8 ps) = Ok (Some true) /\ ~ matches ts cs) /\
  (exists ps ts cs, pattern ps ts /\ text ps /\ ascii cs /\ text cs /\
     fs_match (utf8 cs) (utf8 ps) = Ok (Some false) /\ matches ts cs).
Proof. exact match_wrong. Qed.
Print Assumptions C210_match_refuted.

(** a[b-d]*/?\* with ab世x/y* and with ab世x/yz *)
Example C210_ex :
  pattern ex_pattern ex_terms /\ text ex_pattern /\ Forall slash_free ex_terms /\ stars_anchored ex_terms /\
  fs_match (utf8 ex_yes) (utf8 ex_pattern) = Ok (Some true) /\ matches ex_terms ex_yes /\
  fs_match (utf8 ex_no) (utf8 ex_pattern) = Ok (Some false) /\ ~ matches ex_terms ex_no.
Proof. exact match_example. Qed.
(** From the table of the tests of the standard library: a*b*c*d*e*/f with axbxcxdxexxx/f, a*b?c*x with abxbbxdbxebxczzx
    and with abxbbxdbxebxczzy, [-] , a[^-b] . *)
Example C210_vectors :
  fs_match [97;120;98;120;99;120;100;120;101;120;120;120;47;102] [97;42;98;42;99;42;100;42;101;42;47;102] = Ok (Some true) /\
  fs_match [97;98;120;98;98;120;100;98;120;101;98;120;99;122;122;120] [97;42;98;63;99;42;120] = Ok (Some true) /\
  fs_match [97;98;120;98;98;120;100;98;120;101;98;120;99;122;122;121] [97;42;98;63;99;42;120] = Ok (Some false) /\
  fs_match [45] [91;45;93] = Ok None /\
  fs_match [226;152;186] [91;94;97;93] = Ok (Some true).
Proof. repeat split. Qed.

(** C211: Match always returns; it reports no error for a well-formed pattern, whatever the path; and a pattern that
    matches something is well-formed. Malformed patterns are not always reported. *)
Theorem C211_bad_pattern_partial :
  (forall name p, exists r, fs_match name p = Ok r) /\
  (forall ps ts name, pattern ps ts -> text ps -> fs_match name (utf8 ps) <> Ok None) /\
  (forall ps name, text ps -> fs_match name (utf8 ps) = Ok (Some true) -> exists ts, pattern ps ts).
Proof.
  split; [|split].
  - intros name p. exact (match_total (length p) p name (Nat.le_refl _)).
  - intros ps ts name P T. exact (match_wf (length (utf8 ps)) ps ts P T name).
  - intros ps name T E. exact (match_true_wf (length (utf8 ps)) ps name T E).
Qed.
Print Assumptions C211_bad_pattern_partial.

(** C211: a pattern that is not well-formed has a malformed term behind a well-formed beginning. *)
Theorem C211_malformed : forall ps, text ps ->
  (exists ts, pattern ps ts) \/ exists g ts bad, ps = g ++ bad /\ pattern g ts /\ malformed_term bad.
Proof. intros ps T. exact (pattern_or_bad (length ps) ps (Nat.le_refl _) T). Qed.
Print Assumptions C211_malformed.
(** C211: a malformed term is reported if what is before it, stars at the beginning and terms without stars, matches a
    beginning of the path and something of the path is left. *)
Theorem C211_reported : forall n g gt bad u cs d r,
  pattern g gt -> no_stars gt -> text (g ++ bad) -> malformed_term bad -> ~ In 42 bad ->
  text (u ++ cs ++ d :: r) -> (u = [] \/ (n <> 0%nat /\ Forall (fun c => c <> 47) u)) -> matches gt cs ->
  fs_match (utf8 (u ++ cs ++ d :: r)) (utf8 (repeat 42 n ++ g ++ bad)) = Ok None.
Proof. exact bad_reported. Qed.
Print Assumptions C211_reported.
(** *b[a-] with xbb ; not with xb . *)
Example C211_reported_ex :
  pattern [98] [Lit 98] /\ malformed_term [91; 97; 45; 93] /\
  fs_match [120; 98; 98] [42; 98; 91; 97; 45; 93] = Ok None /\ fs_match [120; 98] [42; 98; 91; 97; 45; 93] = Ok (Some false).
Proof. exact reported_example. Qed.

(** A malformed pattern that is not reported. *)
Theorem C211_bad_pattern_refuted : exists ps name, text ps /\ (forall ts, ~ pattern ps ts) /\ fs_match name (utf8 ps) = Ok (Some false).
Proof. exact bad_unreported. Qed.
Print Assumptions C211_bad_pattern_refuted.

(** a[ with b (not reported), with ab (reported); [a-]b , a trailing backslash. *)
Example C211_ex :
  fs_match [98] [97;91] = Ok (Some false) /\ fs_match [97;98] [97;91] = Ok None /\
  fs_match [97] [91;97;45;93;98] = Ok None /\ fs_match [97] [92] = Ok None /\ fs_match [] [] = Ok (Some true).
Proof. repeat split. Qed.
