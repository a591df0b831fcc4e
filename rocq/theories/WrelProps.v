(** Relate on Windows. *)
From Coq Require Import ZArith List Bool.
From Verif Require Import GoBase PathSpec WinSpec WrelSpec WrelProofs WrelMore WrelMix WinModel WrelModel.
Import ListNotations.
Open Scope Z_scope.

(** C242 (partial): Relate(root) of an absolute path on the volume of root, followed from root, leads to the place of the path, up to
    case where they begin alike. [same] is any comparison with the properties of strings.EqualFold. Missing: other volumes, a share
    without a separator behind it as root, and names with a colon, where it is false; paths without volume are below. *)
Theorem C242_relate_windows_partial : forall same me root v v' r r' cur cwd w w' d e, folds same ->
  volumed me v r -> rooted r -> ~ In 58 r -> volumed root v' r' -> rooted r' -> same (backslashed v') (backslashed v) = true ->
  stands cur cwd root w' d -> stands cur cwd me w e ->
  no_volume (win_relate same me root) /\ ~ rooted (win_relate same me root) /\ alike same (leads d (slashed (win_relate same me root))) e.
Proof. exact relate_stands. Qed.
Print Assumptions C242_relate_windows_partial.
(** Without volumes: both paths begin with a separator, or neither does and root leads down. Missing: colons and roots that lead up,
    where it is false. *)
Theorem C242_relate_windows_no_volume_partial : forall same me root, folds same -> ~ In 58 me -> ~ In 58 root -> no_volume me -> no_volume root ->
  (rooted me /\ rooted root) \/ (~ rooted me /\ ~ rooted root /\ descends root) ->
  no_volume (win_relate same me root) /\ ~ rooted (win_relate same me root) /\
  forall p, alike same (leads (leads p (slashed root)) (slashed (win_relate same me root))) (leads p (slashed me)).
Proof. exact relate_no_volume. Qed.
Print Assumptions C242_relate_windows_no_volume_partial.
(** From a root that leads up, the result is root itself. *)
Theorem C242_up_refuted : exists me root, no_volume me /\ ~ In 58 me /\ no_volume root /\ ~ In 58 root /\ ~ rooted me /\ ~ rooted root /\
  win_relate ascii_fold me root = [46] /\
  exists p, ~ alike ascii_fold (leads (leads p (slashed root)) (slashed (win_relate ascii_fold me root))) (leads p (slashed me)).
Proof. exact relate_up. Qed.
Print Assumptions C242_up_refuted.
(** From A/b to a\F\g, from \A\b to /a/F/g, from b to ..\g. *)
Example C242_no_volume_ex : win_relate ascii_fold (skipn 3 x_me) (skipn 3 x_root) = x_rel /\ win_relate ascii_fold (skipn 2 x_me) (skipn 2 x_root) = x_rel /\
  win_relate ascii_fold [46; 46; 92; 103] [98] = [46; 46; 47; 46; 46; 47; 103] /\ win_relate ascii_fold [102] [46; 46] = [46] /\ descends (skipn 3 x_root).
Proof. repeat split. now exists [[98]; [65]]. Qed.
(** Such comparisons exist. *)
Theorem C242_ascii_folds : folds ascii_fold.
Proof. exact ascii_folds. Qed.
Print Assumptions C242_ascii_folds.
(** On another volume the result is always ".", which is root itself. *)
Theorem C242_other_volume : forall same me root v v' r r', volumed me v r -> rooted r -> volumed root v' r' -> rooted r' ->
  same (backslashed v') (backslashed v) = false -> win_relate same me root = [46].
Proof. exact relate_win_else. Qed.
Print Assumptions C242_other_volume.
(** Nor is a path with volume related to one without: the result is "." as well. *)
Theorem C242_mixed : forall same me root v r, folds same ->
  (volumed me v r /\ no_volume root /\ ~ In 58 root) \/ (volumed root v r /\ no_volume me /\ ~ In 58 me) -> win_relate same me root = [46].
Proof. exact relate_mixed. Qed.
Print Assumptions C242_mixed.
(** C:/A/b and \A\b, in both directions; a share and \s . *)
Example C242_mixed_ex : win_relate ascii_fold x_root (skipn 2 x_root) = [46] /\ win_relate ascii_fold (skipn 2 x_root) x_root = [46] /\
  win_relate ascii_fold (w_share_root ++ [120]) [92; 104; 92; 115; 92; 120] = [46].
Proof. repeat split. Qed.
Theorem C242_relate_windows_refuted : exists me root v r v' r', volumed me v r /\ rooted r /\ volumed root v' r' /\ rooted r' /\
  win_relate ascii_fold me root = [46] /\
  ~ alike ascii_fold (leads (leads [] (slashed r')) (slashed (win_relate ascii_fold me root))) (leads [] (slashed r)).
Proof. exact relate_other_volume. Qed.
Print Assumptions C242_relate_windows_refuted.
(** A share without a separator behind it: a file on the same share is not found either. *)
Theorem C242_bare_share_refuted : exists me root v r, volumed me v r /\ rooted r /\ volumed root v [] /\ share v /\ ~ In 58 r /\
  win_relate ascii_fold me root = [46] /\ ~ alike ascii_fold (leads [] (slashed (win_relate ascii_fold me root))) (leads [] (slashed r)).
Proof. exact relate_bare_share. Qed.
Print Assumptions C242_bare_share_refuted.
(** A name with a colon can become a drive. *)
Theorem C242_colon_refuted : exists me root v r r', volumed me v r /\ rooted r /\ volumed root v r' /\ rooted r' /\ ~ no_volume (win_relate ascii_fold me root).
Proof. exact relate_colon. Qed.
Print Assumptions C242_colon_refuted.
Example C242_ex : win_relate ascii_fold x_me x_root = x_rel /\ win_relate ascii_fold x_root x_root = [46] /\
  win_relate ascii_fold x_me [67; 58; 92; 65] = [70; 47; 103] /\ leads (leads [] [47; 65; 47; 98]) x_rel = [[103]; [70]; [65]] /\
  win_relate ascii_fold (w_share_root ++ [120]) w_share_root = [120] /\ win_relate ascii_fold w_other w_me = [46].
Proof. repeat split. Qed.

(** C243 (partial): on Windows GoPath() is the directory src in the first directory of GOPATH, where entries are separated by
    semicolons. Missing: a first entry that is a drive without a separator behind it, where it is false; without volume see below. *)
Theorem C243_go_path_windows_partial : forall e v r q cur cwd w d, ~ In 59 e -> volumed e v r -> rooted r \/ share v -> (q = [] \/ exists q', q = 59 :: q') ->
  stands cur cwd e w d -> stands cur cwd (win_go_path (e ++ q)) w ([115; 114; 99] :: d).
Proof. exact go_path_win. Qed.
Print Assumptions C243_go_path_windows_partial.
(** RelateGoPath of an absolute path on the same volume leads from GoPath() to the place of the path, up to case. *)
Theorem C243_relate_go_path_windows_partial : forall same e v r q p v' r' cur cwd w w' d f, folds same -> ~ In 59 e -> volumed e v r -> rooted r \/ share v ->
  (q = [] \/ exists q', q = 59 :: q') -> volumed p v' r' -> rooted r' -> ~ In 58 r' -> same (backslashed v) (backslashed v') = true ->
  stands cur cwd (win_go_path (e ++ q)) w d -> stands cur cwd p w' f ->
  no_volume (win_relate_go same (e ++ q) p) /\ ~ rooted (win_relate_go same (e ++ q) p) /\ alike same (leads d (slashed (win_relate_go same (e ++ q) p))) f.
Proof. exact relate_go_win. Qed.
Print Assumptions C243_relate_go_path_windows_partial.
(** With GOPATH=c: the directory src at the root of the drive is taken, not the one in its current directory. *)
Theorem C243_go_path_windows_refuted : exists e cur cwd w d, drive e /\ stands cur cwd e w d /\ ~ stands cur cwd (win_go_path e) w ([115; 114; 99] :: d).
Proof. exact go_path_bare. Qed.
Print Assumptions C243_go_path_windows_refuted.
(** A first entry without volume that does not begin with two separators: the same. *)
Theorem C243_go_path_windows_no_volume_partial : forall e q cur cwd w d, ~ In 59 e -> no_volume e -> ~ In 58 e -> ~ two_seps e -> e <> [] ->
  (q = [] \/ exists q', q = 59 :: q') -> stands cur cwd e w d -> stands cur cwd (win_go_path (e ++ q)) w ([115; 114; 99] :: d).
Proof. exact go_path_none. Qed.
Print Assumptions C243_go_path_windows_no_volume_partial.
(** And RelateGoPath of a path without volume: both begin with a separator, or neither does and the entry leads down. *)
Theorem C243_relate_go_path_windows_no_volume_partial : forall same e q p, folds same -> ~ In 59 e -> no_volume e -> ~ In 58 e -> ~ two_seps e -> e <> [] ->
  (q = [] \/ exists q', q = 59 :: q') -> no_volume p -> ~ In 58 p -> (rooted p /\ rooted e) \/ (~ rooted p /\ ~ rooted e /\ descends e) ->
  no_volume (win_relate_go same (e ++ q) p) /\ ~ rooted (win_relate_go same (e ++ q) p) /\
  forall f, alike same (leads (leads f (slashed (win_go_path (e ++ q)))) (slashed (win_relate_go same (e ++ q) p))) (leads f (slashed p)).
Proof. exact relate_go_none. Qed.
Print Assumptions C243_relate_go_path_windows_no_volume_partial.
(** With two separators and a name, src becomes the name of a share. *)
Theorem C243_server_refuted : exists e cur cwd w d, no_volume e /\ ~ In 58 e /\ ~ In 59 e /\ e <> [] /\
  stands cur cwd e w d /\ ~ stands cur cwd (win_go_path e) w ([115; 114; 99] :: d).
Proof. exact go_path_server. Qed.
Print Assumptions C243_server_refuted.
(** GOPATH is \g;d:\h: GoPath() is /g/src; the file \G\src\p\f is p/f, the file c:\g\src\p is . *)
Example C243_no_volume_ex :
  let env := [92; 103; 59; 100; 58; 92; 104] in
  win_go_path env = [47; 103; 47; 115; 114; 99] /\
  win_relate_go ascii_fold env [92; 71; 92; 115; 114; 99; 92; 112; 92; 102] = [112; 47; 102] /\
  win_relate_go ascii_fold env [99; 58; 92; 103; 92; 115; 114; 99; 92; 112] = [46] /\
  win_go_path [92; 92; 104] = [47; 47; 104; 47; 115; 114; 99; 47].
Proof. repeat split. Qed.
(** GOPATH is c:\g;d:\h: GoPath() is c:/g/src; the file C:\G\src\p\f is p/f. *)
Example C243_ex :
  let env := [99; 58; 92; 103; 59; 100; 58; 92; 104] in
  win_go_path env = [99; 58; 47; 103; 47; 115; 114; 99] /\
  win_relate_go ascii_fold env [67; 58; 92; 71; 92; 115; 114; 99; 92; 112; 92; 102] = [112; 47; 102] /\
  win_relate_go ascii_fold env [100; 58; 92; 104; 92; 102] = [46].
Proof. repeat split. Qed.
