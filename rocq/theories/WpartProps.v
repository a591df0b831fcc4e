(** Ext, SplitList, HasPrefix and RelateWorkPath on Windows. *)
From Coq Require Import ZArith List Bool.
From Verif Require Import GoBase PathSpec PathPartSpec WinSpec WrelSpec WpartSpec WpartProofs WinModel WrelModel WpartModel.
Import ListNotations.
Open Scope Z_scope.

(** C244: on Windows Ext is the text from the last full stop of the last element on; elements end at either separator. *)
Theorem C244_ext_windows : forall s f e, last_part s f -> (win_ext s = e <-> ext_spec_of f e).
Proof. exact win_ext_exact. Qed.
Print Assumptions C244_ext_windows.
(** It takes no heed of volumes: a share alone has the extension of its name, though Base is a backslash there. *)
Theorem C244_share : forall v, share v -> ~ In 92 v -> exists a w, v = a ++ w /\ word w /\ last_part v w /\ ext_spec_of w (win_ext v) /\ win_base v = [92].
Proof. exact share_ext. Qed.
Print Assumptions C244_share.
(** c:\a.b\c has none, c:/a\c.d.e has .e, c:.x has .x, //h/s.d has .d . *)
Example C244_ex : win_ext [99; 58; 92; 97; 46; 98; 92; 99] = [] /\ win_ext [99; 58; 47; 97; 92; 99; 46; 100; 46; 101] = [46; 101] /\
  win_ext [99; 58; 46; 120] = [46; 120] /\ win_ext [47; 47; 104; 47; 115; 46; 100] = [46; 100] /\ win_base [47; 47; 104; 47; 115; 46; 100] = [92].
Proof. repeat split. Qed.

(** C245: on Windows SplitList gives the paths of a list written with semicolons, where a semicolon between quotation marks does not
    separate, and quotation marks are not part of the paths. *)
Theorem C245_split_list_windows : forall s l, win_split_list s = l <-> (s = [] /\ l = []) \/ (s <> [] /\ listing s l).
Proof. exact split_list_win. Qed.
Print Assumptions C245_split_list_windows.
(** Paths without quotation marks, each written between quotation marks, are found again. *)
Theorem C245_quoted : forall l, Forall (fun x => ~ In 34 x) l -> win_split_list (quoted_list l) = l.
Proof. exact split_quoted. Qed.
Print Assumptions C245_quoted.
(** The list a;'b;c'd;;'e; (with quotation marks for the apostrophes) gives a , b;cd , the empty path and e; . *)
Example C245_ex : win_split_list [97; 59; 34; 98; 59; 99; 34; 100; 59; 59; 34; 101; 59] = [[97]; [98; 59; 99; 100]; []; [101; 59]] /\
  win_split_list [] = [] /\ win_split_list [59] = [[]; []] /\ quoted_list [[97; 59]; [98]] = [34; 97; 59; 34; 59; 34; 98; 34].
Proof. repeat split. Qed.

(** C246 (partial): on Windows HasPrefix holds of everything below a directory, whatever the case of the letters. [lower] is any function
    with the properties of strings.ToLower. Missing: only of that (refuted below). *)
Theorem C246_below_windows_partial : forall lower p v cs v' cs' ds, lowers lower -> win_path p = v ++ abs_path cs -> lower v' = lower v ->
  Forall2 (fun x y => lower y = lower x) cs cs' -> win_has_prefix lower (v' ++ abs_path (cs' ++ ds)) p = true.
Proof. exact prefix_win. Qed.
Print Assumptions C246_below_windows_partial.
(** It compares the bytes of the clean paths, as they are or in lower case. *)
Theorem C246_has_prefix_windows_exact : forall lower me p,
  win_has_prefix lower me p = true <-> exists r, me = win_path p ++ r \/ lower me = lower (win_path p) ++ r.
Proof. exact has_prefix_iff. Qed.
Print Assumptions C246_has_prefix_windows_exact.
Theorem C246_ascii_lowers : lowers ascii_lower.
Proof. exact ascii_lowers. Qed.
Print Assumptions C246_ascii_lowers.
Theorem C246_has_prefix_windows_refuted : exists me p v cs ds, drive v /\ me = v ++ abs_path ds /\ win_path p = v ++ abs_path cs /\ win_path me = me /\
  win_has_prefix ascii_lower me p = true /\ forall r, leads [] (slashed (abs_path ds)) <> r ++ leads [] (slashed (abs_path cs)).
Proof. exact prefix_win_false. Qed.
Print Assumptions C246_has_prefix_windows_refuted.
(** C:/A/F is below c:\a\ and below c:\ , not below c:\a\g . *)
Example C246_ex : win_has_prefix ascii_lower [67; 58; 47; 65; 47; 70] [99; 58; 92; 97; 92] = true /\
  win_has_prefix ascii_lower [67; 58; 47; 65; 47; 70] [99; 58; 92] = true /\
  win_has_prefix ascii_lower [67; 58; 47; 65; 47; 70] [99; 58; 92; 97; 92; 103] = false.
Proof. repeat split. Qed.

(** C247 (partial): on Windows RelateWorkPath of an absolute path on the volume of the working directory, followed from there, leads to
    the place of the path, up to case. Missing: other volumes, where it is false, and names with colons. *)
Theorem C247_relate_work_windows_partial : forall same wd v r p v' r' cur cwd w w' d f, folds same -> volumed wd v r -> rooted r ->
  volumed p v' r' -> rooted r' -> ~ In 58 r' -> same (backslashed v) (backslashed v') = true -> stands cur cwd wd w d -> stands cur cwd p w' f ->
  no_volume (win_relate_work same wd p) /\ ~ rooted (win_relate_work same wd p) /\ alike same (leads d (slashed (win_relate_work same wd p))) f.
Proof. exact relate_work_win. Qed.
Print Assumptions C247_relate_work_windows_partial.
(** On another volume the result is always ".". *)
Theorem C247_other_volume : forall same wd v r p v' r', volumed wd v r -> rooted r -> volumed p v' r' -> rooted r' ->
  same (backslashed v) (backslashed v') = false -> win_relate_work same wd p = [46].
Proof. exact relate_work_else. Qed.
Print Assumptions C247_other_volume.
Theorem C247_relate_work_windows_refuted : exists wd p v r v' r', volumed wd v r /\ rooted r /\ volumed p v' r' /\ rooted r' /\ ~ In 58 r' /\
  ~ alike ascii_fold (leads (leads [] (slashed r)) (slashed (win_relate_work ascii_fold wd p))) (leads [] (slashed r')).
Proof. exact relate_work_false. Qed.
Print Assumptions C247_relate_work_windows_refuted.
(** In C:\A\b the path c:/a/F/g is ../F/g ; the path d:/g is . *)
Example C247_ex : win_relate_work ascii_fold [67; 58; 92; 65; 92; 98] x_me = x_rel /\ win_relate_work ascii_fold [67; 58; 92; 65; 92; 98] w_other = [46] /\
  volumed [67; 58; 92; 65; 92; 98] [67; 58] [92; 65; 92; 98].
Proof. repeat split. left. exists 67. split; [right; split; discriminate|reflexivity]. Qed.
