(** Properties of file paths on Windows. *)
From Coq Require Import ZArith List Bool Lia.
From Verif Require Import GoBase PathSpec WinSpec WinProofs WinMore WinJoin WinDir WinRelDir WinSplit WinChild WinModel.
Import ListNotations.
Open Scope Z_scope.

(** C212: the text of a file path has slashes only; making a path of it again changes nothing, and it stands for the same
    place. Missing: paths without volume that lead below a name like a drive. *)
Theorem C212_canonical_partial s cur cwd v d :
  ~ In 92 (win_path s) /\
  (unhidden s -> win_path (win_path s) = win_path s /\ (stands cur cwd (win_path s) v d <-> stands cur cwd s v d)).
Proof. exact (conj (win_path_slashes s) (fun U => conj (win_path_idem s (kept s U)) (stands_iff cur cwd s v d (kept s U)))). Qed.
Print Assumptions C212_canonical_partial.
Theorem C212_no_colon s : ~ In 58 s -> unhidden s.
Proof. exact (no_colon s). Qed.
Print Assumptions C212_no_colon.
(** Equal texts exactly for equal places. Missing: shares. *)
Theorem C212_unique_partial s t : not_share s -> not_share t -> unhidden s -> unhidden t ->
  (forall cur cwd v d, stands cur cwd s v d <-> stands cur cwd t v d) <-> win_path s = win_path t.
Proof. exact (fun NS NT US UT => win_unique s t NS NT (kept s US) (kept t UT)). Qed.
Print Assumptions C212_unique_partial.
(** The paths left out all become paths on a drive. *)
Theorem C212_hidden s : hides_drive s -> exists v r, volumed (win_path s) v r /\ drive v.
Proof. exact (hidden_changes s). Qed.
Print Assumptions C212_hidden.
Theorem C212_place_refuted : exists s cur cwd v d, stands cur cwd s v d /\ ~ stands cur cwd (win_path s) v d.
Proof. exact hidden_moves. Qed.
Print Assumptions C212_place_refuted.
Theorem C212_idempotent_refuted : exists s, win_path (win_path s) <> win_path s.
Proof. exact hidden_not_idem. Qed.
Print Assumptions C212_idempotent_refuted.
Theorem C212_unique_refuted : exists s t,
  (forall cur cwd v d, stands cur cwd s v d <-> stands cur cwd t v d) /\ win_path s <> win_path t.
Proof. exact share_not_unique. Qed.
Print Assumptions C212_unique_refuted.
Example C212_ex : win_path w_drive = w_drive_clean /\ win_path w_share = w_share_root /\ win_path w_hidden = [99; 58; 47; 120] /\
  win_path w_hidden2 = [99; 58] /\ win_path [99; 58] = [99; 58; 46].
Proof. repeat split. Qed.

(** C213: the text for the system has backslashes only, and is the same path. *)
Theorem C213_string_sys cur cwd s v d :
  win_path (string_sys s) = win_path s /\ ~ In 47 (string_sys s) /\ (stands cur cwd (string_sys s) v d <-> stands cur cwd s v d).
Proof. exact (sys_path cur cwd s v d). Qed.
Print Assumptions C213_string_sys.
Example C213_ex : string_sys w_me = [99; 58; 92; 97; 92; 102] /\ win_path (string_sys w_me) = w_me.
Proof. split; reflexivity. Qed.

(** C214: the parts of a path. Missing: relative paths. *)
Theorem C214_split_partial s :
  (forall v r, volumed s v r -> rooted r -> exists cs, Forall wname cs /\ (forall p, leads p (slashed r) = rev cs) /\
     win_path s = slashed v ++ abs_path cs /\ win_split_all (win_path s) = Ok (match cs with [] => [slashed v ++ [47]] | _ => slashed v :: cs end)) /\
  (no_volume s -> rooted s -> exists cs, Forall wname cs /\ (forall p, leads p (slashed s) = rev cs) /\
     win_path s = abs_path cs /\ win_split_all (win_path s) = Ok (match cs with [] => [[47]] | _ => cs end)) /\
  (forall v, volumed s v [] -> share v -> win_path s = slashed v /\ win_split_all (win_path s) = Ok [slashed v]).
Proof. exact (conj (split_all_volumed s) (conj (split_all_rooted s) (split_all_bare s))). Qed.
Print Assumptions C214_split_partial.
(** All the others panic. *)
Theorem C214_relative_panics s :
  (no_volume s /\ unhidden s /\ ~ rooted s) \/ (exists v r, volumed s v r /\ drive v /\ ~ rooted r) -> win_split_all (win_path s) = Panic.
Proof.
  exact (fun H => split_all_panics s match H with
    | or_introl (conj N (conj U R)) => or_introl (conj N (conj (kept s U N) R))
    | or_intror X => or_intror X end).
Qed.
Print Assumptions C214_relative_panics.
(** Joining the parts gives the path back on a share; on a drive the root is lost. *)
Theorem C214_joins_partial s v r : volumed s v r ->
  (share v -> exists parts, win_split_all (win_path s) = Ok parts /\ win_joins parts = win_path s) /\
  (drive v -> rooted r -> leads [] (slashed r) <> [] ->
     exists parts cs, win_split_all (win_path s) = Ok parts /\ win_path s = v ++ abs_path cs /\ win_joins parts = v ++ rel_path cs).
Proof. exact (fun V => conj (split_joins_share s v r V) (split_joins_drive s v r V)). Qed.
Print Assumptions C214_joins_partial.
Theorem C214_split_refuted : exists s, win_split_all (win_path s) = Panic.
Proof. exact relative_panics. Qed.
Print Assumptions C214_split_refuted.
Theorem C214_joins_refuted : exists s parts, win_split_all (win_path s) = Ok parts /\ win_joins parts <> win_path s.
Proof. exact drive_not_back. Qed.
Print Assumptions C214_joins_refuted.
Example C214_ex : win_split_all w_me = Ok [[99; 58]; [97]; [102]] /\ win_joins [[99; 58]; [97]; [102]] = [99; 58; 97; 47; 102] /\
  win_split_all w_share_root = Ok [w_share_root] /\ win_split_all [47; 97; 47; 98] = Ok [[97]; [98]].
Proof. repeat split. Qed.

(** C215: where Rename and Move put a file. Missing: rooted destinations without volume, destinations on another volume. *)
Theorem C215_rename_partial me dest v cs x cur cwd : plain_volume v -> Forall wname cs -> wname x -> me = v ++ abs_path (cs ++ [x]) ->
  (forall v' r, volumed dest v' r ->
     win_rename me dest = win_path dest /\ (forall d w, stands cur cwd (win_rename me dest) w d <-> stands cur cwd dest w d)) /\
  (no_volume dest -> unhidden dest -> ~ rooted dest -> stands cur cwd (win_rename me dest) v (leads (rev cs) (slashed dest))).
Proof. exact (rename_bad me dest v cs x cur cwd). Qed.
Print Assumptions C215_rename_partial.
Theorem C215_move_partial me dest v cs x : plain_volume v -> Forall wname cs -> wname x -> me = v ++ abs_path (cs ++ [x]) ->
  (forall v' r, volumed dest v' r -> slashed v' = v -> win_move me dest = Some (win_rename me dest)) /\
  (forall v' r, volumed dest v' r -> slashed v' <> v -> win_move me dest = None) /\
  (no_volume dest -> unhidden dest -> win_move me dest = Some (win_rename me dest)).
Proof. exact (move_all me dest v cs x). Qed.
Print Assumptions C215_move_partial.
(** A rooted destination without volume is taken inside the directory of the file. *)
Theorem C215_rooted_inside v cs x dest cur cwd : plain_volume v -> Forall wname cs -> wname x -> no_volume dest -> rooted dest ->
  stands cur cwd (win_rename (v ++ abs_path (cs ++ [x])) dest) v (leads [] (slashed dest) ++ rev cs).
Proof. exact (fun PV F X N R => rename_rooted v cs x dest PV F X N R cur cwd). Qed.
Print Assumptions C215_rooted_inside.
Theorem C215_rename_refuted : exists me dest, rooted dest /\ no_volume dest /\
  forall cur cwd, ~ stands cur cwd (win_rename me dest) [99; 58] (leads [] (slashed dest)).
Proof. exact rooted_inside. Qed.
Print Assumptions C215_rename_refuted.
Theorem C215_move_refuted : exists me dest v r, volumed dest v r /\ win_move me dest = None /\ win_rename me dest = dest.
Proof. exact move_lost. Qed.
Print Assumptions C215_move_refuted.
Example C215_ex : win_rename w_me [46; 46; 92; 103] = [99; 58; 47; 103] /\ win_move w_me [46; 46; 92; 103] = Some [99; 58; 47; 103] /\
  win_move w_me w_other = None /\ win_move w_me w_upper = None /\ win_rename w_me w_rooted = [99; 58; 47; 97; 47; 116; 109; 112; 47; 103].
Proof. repeat split. Qed.

(** C216: where Joins leads; empty elements in front do not count. Missing: a drive alone followed by an empty or rooted element; colons behind elements without
    volume. *)
Theorem C216_joins_partial cur cwd n h t v d : joinable h t -> stands cur cwd h v d ->
  stands cur cwd (win_joins (repeat [] n ++ h :: t)) v (onwards t d).
Proof. exact (joins_all cur cwd n h t v d). Qed.
Print Assumptions C216_joins_partial.
Theorem C216_joins_refuted : exists h t cur cwd v d,
  h <> [] /\ Forall (fun x => ~ rooted x) t /\ stands cur cwd h v d /\ ~ stands cur cwd (win_joins (h :: t)) v (onwards t d).
Proof. exact joins_root. Qed.
Print Assumptions C216_joins_refuted.
Example C216_ex : win_joins [[47]; [104]; [115]] = [47; 104; 47; 115] /\ win_joins [[47; 47; 104]; [115]; [120]] = [47; 104; 47; 115; 47; 120] /\
  win_joins [w_me; [46; 46; 92; 103]] = [99; 58; 47; 97; 47; 103] /\ win_joins [[99; 58]; []; [120]] = [99; 58; 47; 120] /\
  win_joins [w_share_bare; [120]] = w_share_root ++ [120].
Proof. repeat split. Qed.

(** C217: volume, directory and last name of a path. *)
Theorem C217_volume_name s :
  (forall v r, volumed s v r -> volume_name s = backslashed v) /\ (no_volume s -> volume_name s = []).
Proof. exact (volume_name_all s). Qed.
Print Assumptions C217_volume_name.
Theorem C217_dir_base s v r cur cwd : volumed s v r -> rooted r ->
  stands cur cwd (win_dir (win_path s)) (slashed v) (tl (leads [] (slashed r))) /\
  (leads [] (slashed r) = [] -> win_base (win_path s) = [92]) /\
  (leads [] (slashed r) <> [] -> win_base (win_path s) = hd [] (leads [] (slashed r)) /\
     win_joins [win_dir (win_path s); win_base (win_path s)] = win_path s).
Proof. exact (dir_base s v r cur cwd). Qed.
Print Assumptions C217_dir_base.
Theorem C217_share s v : volumed s v [] -> share v -> win_dir (win_path s) = backslashed v /\ win_base (win_path s) = [92].
Proof. exact (dir_base_bare s v). Qed.
Print Assumptions C217_share.
Theorem C217_rooted s cur cwd : no_volume s -> rooted s ->
  stands cur cwd (win_dir (win_path s)) cur (tl (leads [] (slashed s))) /\
  (leads [] (slashed s) = [] -> win_base (win_path s) = [92]) /\
  (leads [] (slashed s) <> [] -> win_base (win_path s) = hd [] (leads [] (slashed s)) /\
     (~ In 58 s -> win_joins [win_dir (win_path s); win_base (win_path s)] = win_path s)).
Proof. exact (rooted_parts s cur cwd). Qed.
Print Assumptions C217_rooted.
Theorem C217_relative s x f : no_volume s -> ~ In 58 s -> ~ rooted s -> (forall p, leads p (slashed s) = x :: f p) ->
  win_base (win_path s) = x /\ no_volume (win_dir (win_path s)) /\ (forall p, leads p (slashed (win_dir (win_path s))) = f p) /\
  win_joins [win_dir (win_path s); win_base (win_path s)] = win_path s.
Proof. exact (relative_parts s x f). Qed.
Print Assumptions C217_relative.
Theorem C217_relative_up s k : no_volume s -> ~ In 58 s -> ~ rooted s -> (forall p, leads p (slashed s) = skipn k p) ->
  win_base (win_path s) = match k with O => [46] | S _ => [46; 46] end /\ no_volume (win_dir (win_path s)) /\
  (forall p, leads p (slashed (win_dir (win_path s))) = skipn (pred k) p).
Proof. exact (dir_base_up s k). Qed.
Print Assumptions C217_relative_up.
Theorem C217_drive_relative s v r x f : volumed s v r -> drive v -> ~ In 58 r -> ~ rooted r -> (forall p, leads p (slashed r) = x :: f p) ->
  win_base (win_path s) = x /\ (forall cur cwd, stands cur cwd (win_dir (win_path s)) v (f (cwd v))) /\
  win_joins [win_dir (win_path s); win_base (win_path s)] = win_path s.
Proof. exact (drive_parts s v r x f). Qed.
Print Assumptions C217_drive_relative.
Theorem C217_drive_up s v r k : volumed s v r -> drive v -> ~ In 58 r -> ~ rooted r -> (forall p, leads p (slashed r) = skipn k p) ->
  win_base (win_path s) = match k with O => [46] | S _ => [46; 46] end /\
  forall cur cwd, stands cur cwd (win_dir (win_path s)) v (skipn (pred k) (cwd v)).
Proof. exact (dir_base_drive_up s v r k). Qed.
Print Assumptions C217_drive_up.
Example C217_relative_ex : win_dir (win_path [97; 92; 98]) = [97] /\ win_base (win_path [97; 92; 98]) = [98] /\
  win_dir (win_path [46; 46; 92; 97]) = [46; 46] /\ win_dir (win_path [97]) = [46] /\ win_dir [46; 46] = [46] /\ win_base [46; 46] = [46; 46] /\
  win_dir (win_path [99; 58; 97]) = [99; 58; 46] /\ win_base (win_path [99; 58; 97]) = [97].
Proof. repeat split. Qed.
Example C217_ex : volume_name w_share = [92; 92; 104; 92; 115] /\ win_dir w_me = [99; 58; 92; 97] /\ win_base w_me = [102] /\
  win_dir w_share_bare = [92; 92; 104; 92; 115] /\ win_dir w_share_root = [92; 92; 104; 92; 115; 92] /\ win_base w_share_root = [92] /\
  win_base [99; 58; 47; 97; 47; 47] = [97].
Proof. repeat split. Qed.

(** C250: Split cuts behind the last separator, but never inside the volume; Base is the last element of any text. *)
Theorem C250_split_windows s d f :
  (forall v r, volumed s v r -> (win_split s = (d, f) <-> exists e, d = v ++ e /\ cut_behind r e f)) /\
  (no_volume s -> (win_split s = (d, f) <-> cut_behind s d f)).
Proof. exact (conj (fun v r => split_volume s v r d f) (split_none s d f)). Qed.
Print Assumptions C250_split_windows.
Theorem C250_base_windows :
  (forall s v r d f ss, volumed s v r -> cut_behind r d f -> f <> [] -> Forall sep ss -> win_base (s ++ ss) = f) /\
  (forall s d f ss, no_volume s -> cut_behind s d f -> f <> [] -> Forall sep ss -> win_base (s ++ ss) = f) /\
  (forall v ss, drive v \/ share v -> Forall sep ss -> win_base (v ++ ss) = [92]) /\
  (forall ss, Forall sep ss -> ss <> [] -> win_base ss = [92]) /\ win_base [] = [46].
Proof. exact (conj base_volume (conj base_plain (conj base_bare (conj base_seps eq_refl)))). Qed.
Print Assumptions C250_base_windows.
(** For the share //h/s Split gives the share and nothing; c:a\b/ is cut behind the last slash and has the Base b. *)
Example C250_ex : win_split [47; 47; 104; 47; 115] = ([47; 47; 104; 47; 115], []) /\ win_split [99; 58; 97; 92; 98; 47] = ([99; 58; 97; 92; 98; 47], []) /\
  win_split [99; 58; 97] = ([99; 58], [97]) /\ win_base [99; 58; 97; 92; 98; 47] = [98] /\ win_base [99; 58; 47] = [92] /\ win_base [47; 92] = [92] /\
  cut_behind [97; 92; 98] [97; 92] [98].
Proof.
  do 6 (split; [reflexivity|]). split; [reflexivity|]. split; [constructor; [intros [?|?]; discriminate|constructor]|]. right. exists [97], 92. split; [reflexivity|now right].
Qed.

(** C251: a name joined to a path is the Base of the result, and its Dir stands for the place of the path. *)
Theorem C251_child s x : one_colon s -> wname x -> ~ In 58 x -> win_base (win_joins [win_path s; x]) = x /\
  forall cur cwd v d, stands cur cwd s v d -> stands cur cwd (win_dir (win_joins [win_path s; x])) v d.
Proof. exact (child_all s x). Qed.
Print Assumptions C251_child.
(** Names with colons are rightly left out: c: joined to . is the working directory of the drive. *)
Theorem C251_colon_refuted : exists s x, one_colon s /\ wname x /\ win_base (win_joins [win_path s; x]) <> x.
Proof. exact child_colon. Qed.
Print Assumptions C251_colon_refuted.
Example C251_ex : win_joins [win_path [99; 58; 97; 92; 46]; [98]] = [99; 58; 97; 47; 98] /\ win_dir [99; 58; 97; 47; 98] = [99; 58; 97] /\
  win_joins [win_path [46; 46]; [98]] = [46; 46; 47; 98] /\ win_base [46; 46; 47; 98] = [98] /\ win_joins [win_path [99; 58; 92]; [98]] = [99; 58; 47; 98] /\
  win_dir [99; 58; 47; 98] = [99; 58; 92] /\ win_joins [win_path [92; 92; 104; 92; 115]; [98]] = [47; 47; 104; 47; 115; 47; 98] /\
  win_dir [47; 47; 104; 47; 115; 47; 98] = [92; 92; 104; 92; 115; 92].
Proof. repeat split. Qed.
