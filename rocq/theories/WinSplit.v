(** Split and Base on Windows of any text. *)
From Coq Require Import ZArith List Bool Arith Lia.
From Verif Require Import GoBase GoStrings PathSpec PathModel PathProofs WinSpec WinModel WinProofs WinMore WinDir.
Import ListNotations.
Open Scope Z_scope.

Lemma cut_split s : cut_behind s (fst (split_sep s)) (snd (split_sep s)).
Proof.
  induction s as [|c t IH]; [repeat split; [constructor|now left]|]. cbn [split_sep]. destruct (split_sep t) as [d f]. cbn [fst snd] in IH. destruct IH as (E & F & D). destruct d as [|d0 d].
  - destruct (is_sep c) eqn:S; cbn [fst snd].
    + apply is_sep_spec in S. cbn in E. subst f. split; [reflexivity|]. split; [exact F|]. right. exists [], c. auto.
    + apply is_sep_false in S. cbn in E. subst f. split; [reflexivity|]. split; [now constructor|]. now left.
  - cbn [fst snd]. split; [cbn; now rewrite <- E|]. split; [exact F|]. right. destruct D as [D|(d' & z & D & Z)]; [discriminate|]. exists (c :: d'), z. split; [cbn; now rewrite <- D|exact Z].
Qed.
Lemma cut_unique s d f d' f' : cut_behind s d f -> cut_behind s d' f' -> d = d' /\ f = f'.
Proof.
  intros (E & F & D) (E' & F' & D').
  assert (K : forall a b a' b', Forall (fun c => ~ sep c) b -> (a' = [] \/ exists q z, a' = q ++ [z] /\ sep z) -> a ++ b = a' ++ b' -> (length a' <= length a)%nat).
  { clear. intros a b a' b' F [->|(q & z & -> & Z)] E; [cbn; lia|]. destruct (le_lt_dec (length (q ++ [z])) (length a)) as [H|H]; [exact H|]. exfalso.
    rewrite Forall_forall in F. apply (F z); [|exact Z]. rewrite <- app_assoc in E. rewrite app_length in H. cbn in H.
    assert (b = skipn (length a) (q ++ [z] ++ b')) by (rewrite <- E, skipn_app, Nat.sub_diag, skipn_all; reflexivity). subst b.
    rewrite skipn_app. apply in_or_app. right. replace (length a - length q)%nat with 0%nat by lia. now left. }
  rewrite <- E' in E. pose proof (K _ _ _ _ F D' E). pose proof (K _ _ _ _ F' D (eq_sym E)).
  assert (L : length d = length d') by lia. split.
  - apply (f_equal (firstn (length d))) in E. rewrite firstn_app, Nat.sub_diag, firstn_all, firstn_O, app_nil_r in E. rewrite L in E. now rewrite firstn_app, Nat.sub_diag, firstn_all, firstn_O, app_nil_r in E.
  - apply (f_equal (skipn (length d))) in E. rewrite skipn_app, Nat.sub_diag, skipn_all in E. rewrite L in E. now rewrite skipn_app, Nat.sub_diag, skipn_all in E.
Qed.
Lemma split_sep_iff s d f : split_sep s = (d, f) <-> cut_behind s d f.
Proof.
  pose proof (cut_split s) as C. split; intros H.
  - now rewrite H in C.
  - destruct (cut_unique s _ _ d f C H) as [<- <-]. apply surjective_pairing.
Qed.
Lemma split_volume s v r d f : volumed s v r -> (win_split s = (d, f) <-> exists e, d = v ++ e /\ cut_behind r e f).
Proof.
  intros V. unfold win_split. destruct (vol_ok s v r V) as [-> ->]. destruct (split_sep r) as [e g] eqn:E. split.
  - intros H. injection H as <- <-. exists e. split; [reflexivity|]. now apply split_sep_iff.
  - intros (e' & -> & C). apply split_sep_iff in C. rewrite E in C. now injection C as -> ->.
Qed.
Lemma split_none s d f : no_volume s -> (win_split s = (d, f) <-> cut_behind s d f).
Proof.
  intros N. unfold win_split. destruct (no_vol s N) as [-> ->]. rewrite <- split_sep_iff. destruct (split_sep s) as [e g]. reflexivity.
Qed.
Lemma strip_all ss : Forall sep ss -> strip_seps ss = [].
Proof. induction 1 as [|c l S F IH]; [reflexivity|]. cbn. apply is_sep_spec in S. now rewrite IH, S. Qed.
Lemma strip_ends a ss : Forall sep ss -> strip_seps (a ++ ss) = strip_seps a.
Proof. intros F. induction a as [|c a IH]; [now apply strip_all|]. cbn [app strip_seps]. now rewrite IH. Qed.
Lemma nosep_end f : f <> [] -> Forall (fun c => ~ sep c) f -> exists g z, f = g ++ [z] /\ ~ sep z.
Proof. intros N F. destruct (exists_last N) as (g & z & ->). exists g, z. split; [reflexivity|]. apply Forall_app in F as [_ F]. now inversion F. Qed.
Lemma base_cut s r d f ss : rest s = r -> (exists q, s = q ++ r) -> cut_behind r d f -> f <> [] -> Forall sep ss -> win_base (s ++ ss) = f.
Proof.
  intros R (q & Q) C N F. unfold win_base. rewrite strip_ends by exact F. assert (S : strip_seps s = s).
  { destruct C as (E & G & _). destruct (nosep_end f N G) as (g & z & Ef & Z). rewrite Q, <- E, Ef, !app_assoc. now apply strip_word. }
  rewrite S, R. apply split_sep_iff in C. rewrite C. cbn [snd]. destruct f as [|f0 f']; [congruence|]. destruct (s ++ ss) eqn:E; [|reflexivity].
  apply app_eq_nil in E as [E _]. exfalso. rewrite E in R. cbn in R. subst r. injection C as _ K. discriminate.
Qed.
Lemma base_volume s v r d f ss : volumed s v r -> cut_behind r d f -> f <> [] -> Forall sep ss -> win_base (s ++ ss) = f.
Proof. intros V. destruct (vol_ok s v r V) as [_ R]. apply base_cut; [exact R|]. exists v. apply V. Qed.
Lemma base_plain s d f ss : no_volume s -> cut_behind s d f -> f <> [] -> Forall sep ss -> win_base (s ++ ss) = f.
Proof. intros N. destruct (no_vol s N) as [_ R]. apply base_cut; [exact R|]. now exists []. Qed.
Lemma volume_end v : drive v \/ share v -> exists a z, v = a ++ [z] /\ ~ sep z.
Proof.
  intros [(c & _ & ->)|(a & b & h & d & w & _ & _ & _ & _ & (NW & FW & _) & ->)].
  - exists [c], 58. split; [reflexivity|intros [?|?]; discriminate].
  - destruct (nosep_end w NW FW) as (g & z & -> & Z). exists (a :: b :: h ++ d :: g), z. split; [cbn; now rewrite <- app_assoc|exact Z].
Qed.
Lemma base_bare v ss : drive v \/ share v -> Forall sep ss -> win_base (v ++ ss) = [92].
Proof.
  intros D F. unfold win_base. rewrite strip_ends by exact F. destruct (volume_end v D) as (a & z & E & Z).
  assert (S : strip_seps v = v) by (rewrite E; now apply strip_word). rewrite S.
  assert (V : volumed v v []) by (split; [now rewrite app_nil_r|destruct D; [now left|now right]]). destruct (vol_ok v v [] V) as [_ ->]. rewrite E. destruct a; reflexivity.
Qed.
Lemma base_seps ss : Forall sep ss -> ss <> [] -> win_base ss = [92].
Proof. intros F N. unfold win_base. rewrite strip_all by exact F. destruct ss; [congruence|reflexivity]. Qed.
