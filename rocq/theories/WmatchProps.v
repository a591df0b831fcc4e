(** C248, C249: matching paths with patterns on Windows. *)
From Coq Require Import ZArith List Bool Arith Lia.
From Verif Require Import GoBase GoStrings MatchSpec MatchModel MatchProofs WmatchSpec WmatchProofs WmatchErr WmatchBad WmatchMore WmatchModel.
Import ListNotations.
Open Scope Z_scope.

(** C248: on Windows, for a well-formed pattern and a file path, Match tells whether the path is one of the texts the
    pattern stands for. Proved for the rules of Windows, where a file path (C212: it has no backslash) has no separator for
    the pattern, and for paths of ASCII characters or stars that are followed by written-out characters. *)
Theorem C248_match_windows_partial : forall ps ts cs,
  wpattern ps ts -> text ps -> text cs -> ~ In 92 cs -> ascii cs \/ stars_anchored ts ->
  exists b, wfs_match (utf8 cs) (utf8 ps) = Ok (Some b) /\ (b = true <-> wmatches ts cs).
Proof. exact wmatch_path. Qed.
Print Assumptions C248_match_windows_partial.

(** C248: so a star matches every file path, whatever its depth. *)
Theorem C248_star_everything : forall me, ~ In 92 me -> wfs_match me [42] = Ok (Some true).
Proof. exact wmatch_star. Qed.
Print Assumptions C248_star_everything.

(** C248: and a pattern that spells out the separator of Windows matches no file path. *)
Theorem C248_backslash_nothing : forall ps ts cs,
  wpattern ps ts -> text ps -> text cs -> ~ In 92 cs -> ascii cs \/ stars_anchored ts -> In (Lit 92) ts ->
  wfs_match (utf8 cs) (utf8 ps) = Ok (Some false).
Proof. exact wmatch_backslash. Qed.
Print Assumptions C248_backslash_nothing.

(** Not as on Unix, where patterns follow the elements of the path: a star crosses slashes, an escaped star does not match
    a star; and, as on Unix, a star may skip a part of a character. *)
Theorem C248_match_windows_refuted :
  (exists ps ts cs, pattern ps ts /\ ~ In 92 ps /\ text ps /\ ascii cs /\ text cs /\ ~ In 92 cs /\
     wfs_match (utf8 cs) (utf8 ps) = Ok (Some true) /\ ~ matches ts cs) /\
  (exists ps ts cs, pattern ps ts /\ text ps /\ ascii cs /\ text cs /\ ~ In 92 cs /\
     wfs_match (utf8 cs) (utf8 ps) = Ok (Some false) /\ matches ts cs) /\
  (exists ps ts cs, wpattern ps ts /\ text ps /\ text cs /\ ~ In 92 cs /\
     wfs_match (utf8 cs) (utf8 ps) = Ok (Some true) /\ ~ wmatches ts cs).
Proof. exact wmatch_wrong. Qed.
Print Assumptions C248_match_windows_refuted.

(** s/[a-f]*.g? with s/fs/世.go and with s/f.g *)
Example C248_ex :
  wpattern wex_pattern wex_terms /\ text wex_pattern /\ stars_anchored wex_terms /\
  wfs_match (utf8 wex_yes) (utf8 wex_pattern) = Ok (Some true) /\ wmatches wex_terms wex_yes /\
  wfs_match (utf8 wex_no) (utf8 wex_pattern) = Ok (Some false) /\ ~ wmatches wex_terms wex_no.
Proof. exact wmatch_example. Qed.
(** c:/a*, [^x]:*, and a\b with a/b *)
Example C248_vectors :
  wfs_match [99;58;47;97;47;98] [99;58;47;97;42] = Ok (Some true) /\
  wfs_match [99;58;47;97;47;98] [91;94;120;93;58;42] = Ok (Some true) /\
  wfs_match [120;58;47] [91;94;120;93;58;42] = Ok (Some false) /\
  wfs_match [97;47;98] [97;92;98] = Ok (Some false).
Proof. repeat split. Qed.

(** C249: on Windows Match always returns; it reports no error for a well-formed pattern, whatever the path; and a pattern
    that matches something is well-formed. Malformed patterns are not always reported. *)
Theorem C249_bad_pattern_windows_partial :
  (forall name p, exists r, wfs_match name p = Ok r) /\
  (forall ps ts name, wpattern ps ts -> text ps -> wfs_match name (utf8 ps) <> Ok None) /\
  (forall ps name, text ps -> wfs_match name (utf8 ps) = Ok (Some true) -> exists ts, wpattern ps ts).
Proof.
  split; [|split].
  - intros name p. exact (wmatch_total (length p) p name (Nat.le_refl _)).
  - intros ps ts name P T. exact (wmatch_wf (length (utf8 ps)) ps ts P T name).
  - intros ps name T E. exact (wmatch_true_wf (length (utf8 ps)) ps name T E).
Qed.
Print Assumptions C249_bad_pattern_windows_partial.

(** C249: a pattern that is not well-formed has a malformed term behind a well-formed beginning. *)
Theorem C249_malformed : forall ps, text ps ->
  (exists ts, wpattern ps ts) \/ exists g ts bad, ps = g ++ bad /\ wpattern g ts /\ wmalformed_term bad.
Proof. intros ps T. exact (wpattern_or_bad (length ps) ps (Nat.le_refl _) T). Qed.
Print Assumptions C249_malformed.
(** C249: a malformed term is reported if what is before it, stars at the beginning and terms without stars, matches a
    beginning of the path and something of the path is left. *)
Theorem C249_reported : forall n g gt bad u cs d r,
  wpattern g gt -> no_stars gt -> text (g ++ bad) -> wmalformed_term bad -> ~ In 42 bad ->
  text (u ++ cs ++ d :: r) -> (u = [] \/ (n <> 0%nat /\ Forall (fun c => c <> 92) u)) -> wmatches gt cs ->
  wfs_match (utf8 (u ++ cs ++ d :: r)) (utf8 (repeat 42 n ++ g ++ bad)) = Ok None.
Proof. exact wbad_reported. Qed.
Print Assumptions C249_reported.
(** *b[a-] with xbb ; not with xb . *)
Example C249_reported_ex :
  wpattern [98] [Lit 98] /\ wmalformed_term [91; 97; 45; 93] /\
  wfs_match [120; 98; 98] [42; 98; 91; 97; 45; 93] = Ok None /\ wfs_match [120; 98] [42; 98; 91; 97; 45; 93] = Ok (Some false).
Proof. exact wreported_example. Qed.

(** A malformed pattern that is not reported. *)
Theorem C249_bad_pattern_windows_refuted : exists ps name, text ps /\ (forall ts, ~ wpattern ps ts) /\ wfs_match name (utf8 ps) = Ok (Some false).
Proof. exact wbad_unreported. Qed.
Print Assumptions C249_bad_pattern_windows_refuted.

(** a[ with b (not reported), with ab (reported); [a-]b ; a trailing backslash is not an error here, nor is one in a class. *)
Example C249_ex :
  wfs_match [98] [97;91] = Ok (Some false) /\ wfs_match [97;98] [97;91] = Ok None /\
  wfs_match [97] [91;97;45;93;98] = Ok None /\ wfs_match [97] [92] = Ok (Some false) /\ wfs_match [92] [91;92;93] = Ok (Some true).
Proof. repeat split. Qed.
