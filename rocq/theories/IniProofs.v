(** Proofs about loading INI texts. *)
From Coq Require Import ZArith List Bool Lia Permutation.
From Verif Require Import GoBase GoLists GoMap GoStrings IniModel IniSpec.
Import ListNotations.
Open Scope Z_scope.

Lemma splits_exists text : exists ls, splits text ls.
Proof.
  assert (G : forall n text, (length text <= n)%nat -> exists ls, splits text ls).
  { induction n as [|n IH]; intros t H.
    - destruct t; [|cbn in H; lia]. exists [[]]. constructor. auto.
    - pose proof (cut_spec 10 t) as C. destruct (cut 10 t) as [a [b|]].
      + destruct C as [-> C]. destruct (IH b) as (ls & Hl); [rewrite app_length in H; cbn in H; lia|].
        eexists. eapply split_line; eauto.
      + destruct C as [-> C]. exists [t]. now constructor. }
  exact (G _ text (le_n _)).
Qed.

(** ** The loop is a fold over the lines *)
Fixpoint run_lines (sec : list Z) (m : inifile) (ls : list (list Z)) : outcome (list Z * inifile) :=
  match ls with
  | [] => Ok (sec, m)
  | l :: t => ' (sec, m) <- load_line sec m l ;; run_lines sec m t
  end.

Lemma cut_no c l : ~ In c l -> cut c l = (l, None).
Proof.
  induction l as [|x l IH]; cbn; auto. intros H. destruct (Z.eqb_spec x c); [tauto|]. rewrite IH by tauto. reflexivity.
Qed.
Lemma cut_at c l t : ~ In c l -> cut c (l ++ c :: t) = (l, Some t).
Proof.
  induction l as [|x l IH]; cbn; intros H; [now rewrite Z.eqb_refl|]. destruct (Z.eqb_spec x c); [tauto|]. rewrite IH by tauto. reflexivity.
Qed.

Lemma load_loop_lines text ls : splits text ls -> forall fuel sec m, (length text < fuel)%nat ->
  load_loop fuel sec m text = (' (_, m) <- run_lines sec m ls ;; Ok m).
Proof.
  induction 1 as [l H|l text ls H S IH]; intros fuel sec m F; destruct fuel as [|f]; try lia; cbn [load_loop run_lines]; unfold read_line.
  - rewrite cut_no by auto. destruct (load_line sec m l) as [[sec1 m1]| |]; reflexivity.
  - rewrite cut_at by auto. destruct (load_line sec m (l ++ [10])) as [[sec1 m1]| |]; cbn [bind]; auto.
    apply IH. rewrite app_length in F. cbn in F. lia.
Qed.

Lemma run_lines_snoc ls x : forall sec m, run_lines sec m (ls ++ [x]) = (' (sec, m) <- run_lines sec m ls ;; load_line sec m x).
Proof.
  induction ls as [|l ls IH]; intros sec m; cbn [app run_lines].
  - cbn [bind]. destruct (load_line sec m x) as [[? ?]| |]; reflexivity.
  - destruct (load_line sec m l) as [[? ?]| |]; cbn [bind]; auto.
Qed.

(** ** One line *)
Definition found (m : inifile) (sec key : list Z) : option (list Z) :=
  match mfind str_eqb sec m with None => None | Some s => mfind str_eqb key s end.

Lemma last_nth {A} (l : list A) (x d : A) : aget (x :: l) (length l) = Ok (last (x :: l) d).
Proof.
  revert x. induction l as [|y l IH]; intros x; [reflexivity|]. cbn [length]. unfold aget in *. cbn [nth_error].
  specialize (IH y). exact IH.
Qed.

Lemma load_line_kind sec m line :
  load_line sec m line =
  match kind line with
  | KNone => Ok (sec, m)
  | KHeader s => Ok (s, match mfind str_eqb s m with Some _ => m | None => mset str_eqb s [] m end)
  | KEntry k v =>
      if str_eqb sec [] || str_eqb k [] then Ok (sec, m) else
      match mfind str_eqb sec m with
      | None => Panic
      | Some s => Ok (sec, mset str_eqb sec (mset str_eqb k v s) m)
      end
  end.
Proof.
  unfold load_line, kind. destruct (trim_space line) as [|c r] eqn:T; [reflexivity|]. cbn [hd tl str_eqb orb].
  destruct (c =? 59); [reflexivity|].
  assert (G : zget (c :: r) (zlen (c :: r) - 1) = Ok (last (c :: r) 0)).
  { unfold zget, zlen. cbn [length]. destruct (Z.ltb_spec (Z.of_nat (S (length r)) - 1) 0); [lia|].
    replace (Z.to_nat (Z.of_nat (S (length r)) - 1)) with (length r) by lia. apply last_nth. }
  rewrite G. cbn [bind]. destruct (Z.eqb_spec c 91) as [->|nc]; cbn [andb].
  - destruct (Z.eqb_spec (last (91 :: r) 0) 93) as [E|E].
    + assert (Z : zslice (91 :: r) 1 (zlen (91 :: r) - 1) = Ok (removelast r)).
      { destruct r as [|y r]; [discriminate|]. unfold zslice, zlen. cbn [length].
        destruct (Z.leb_spec 0 1); [|lia]. destruct (Z.leb_spec 1 (Z.of_nat (S (S (length r))) - 1)); [|lia].
        destruct (Z.leb_spec (Z.of_nat (S (S (length r))) - 1) (Z.of_nat (S (S (length r))))); [|lia]. cbn [andb].
        f_equal. rewrite removelast_firstn_len. change (Z.to_nat 1) with 1%nat. cbn [skipn length].
        f_equal. lia. }
      rewrite Z. reflexivity.
    + destruct sec as [|sc sr].
      * destruct (cut 61 (91 :: r)) as [k [v|]]; reflexivity.
      * unfold split2. destruct (cut 61 (91 :: r)) as [k [v|]]; cbn [str_eqb orb]; unfold zlen; cbn -[trim_space mset mfind];
          destruct (trim_space k); cbn [str_eqb]; try reflexivity.
  - destruct sec as [|sc sr].
    + destruct (cut 61 (c :: r)) as [k [v|]]; reflexivity.
    + unfold split2. destruct (cut 61 (c :: r)) as [k [v|]]; cbn [str_eqb orb]; unfold zlen; cbn -[trim_space mset mfind];
        destruct (trim_space k); cbn [str_eqb]; try reflexivity.
Qed.

(** ** All lines *)
Definition cur_ok (ls : list (list Z)) (sec : list Z) : Prop :=
  in_block ls sec \/ (sec = [] /\ forall x n, In x ls -> kind x <> KHeader n).

Lemma in_block_snoc ls x name : in_block (ls ++ [x]) name <->
  kind x = KHeader name \/ (in_block ls name /\ forall n, kind x <> KHeader n).
Proof.
  split.
  - intros (a & h & b & E & Hk & Hb). destruct b as [|y b] using rev_ind.
    + apply app_inj_tail in E. destruct E as [-> ->]. auto.
    + clear IHb. change (a ++ h :: b ++ [y]) with (a ++ (h :: b) ++ [y]) in E. rewrite app_assoc in E.
      apply app_inj_tail in E. destruct E as [-> <-]. right. split.
      * exists a, h, b. repeat split; auto. intros z n Hz. apply Hb. apply in_app_iff. auto.
      * intros n. apply Hb. apply in_app_iff. cbn. auto.
  - intros [Hk|((a & h & b & -> & Hk & Hb) & Hx)].
    + exists ls, x, []. repeat split; auto.
    + exists a, h, (b ++ [x]). rewrite <- app_assoc. repeat split; auto. intros z n Hz.
      apply in_app_iff in Hz. destruct Hz as [Hz|[<-|[]]]; auto.
Qed.

Lemma in_block_unique ls n1 n2 : in_block ls n1 -> in_block ls n2 -> n1 = n2.
Proof.
  revert n1 n2. induction ls as [|x ls IH] using rev_ind; intros n1 n2 H1 H2.
  - destruct H1 as (a & h & b & E & _). destruct a; discriminate.
  - apply in_block_snoc in H1, H2. destruct H1 as [H1|[H1 N1]], H2 as [H2|[H2 N2]].
    + congruence.
    + exfalso. eapply N2; eauto.
    + exfalso. eapply N1; eauto.
    + auto.
Qed.

Lemma in_block_none ls sec : (forall x n, In x ls -> kind x <> KHeader n) -> ~ in_block ls sec.
Proof.
  intros H (a & h & b & -> & Hk & _). apply (H h sec); auto. apply in_app_iff. cbn. auto.
Qed.

Lemma cur_in_block ls sec s : cur_ok ls sec -> s <> [] -> (in_block ls s <-> sec = s).
Proof.
  intros [C|[-> C]] Hs.
  - split; [intros H; eapply in_block_unique; eauto|intros ->; auto].
  - split; [intros H; exfalso; eapply in_block_none; eauto|congruence].
Qed.

Lemma snoc_split {A} (ls : list A) x a y b : ls ++ [x] = a ++ y :: b ->
  (b = [] /\ a = ls /\ y = x) \/ exists b', b = b' ++ [x] /\ ls = a ++ y :: b'.
Proof.
  intros E. destruct b as [|z b] using rev_ind.
  - apply app_inj_tail in E. destruct E as [-> ->]. auto.
  - clear IHb. right. exists b. change (a ++ y :: b ++ [z]) with (a ++ (y :: b) ++ [z]) in E. rewrite app_assoc in E.
    apply app_inj_tail in E. destruct E as [-> ->]. auto.
Qed.

Lemma last_assignment_yes ls x sec key v : assigns ls x sec key v -> last_assignment (ls ++ [x]) sec key (Some v).
Proof.
  intros H. exists ls, x, []. repeat split; try apply H. intros c y d w E. destruct c; discriminate.
Qed.
Lemma last_assignment_no ls x sec key r : (forall w, ~ assigns ls x sec key w) -> last_assignment ls sec key r ->
  last_assignment (ls ++ [x]) sec key r.
Proof.
  intros N. destruct r as [v|]; cbn [last_assignment].
  - intros (a & y & b & -> & H & L). exists a, y, (b ++ [x]). split; [now rewrite <- app_assoc|]. split; auto.
    intros c z d w E. apply snoc_split in E. destruct E as [(-> & -> & ->)|(d' & -> & ->)]; [apply N|eauto].
  - intros H a y b w E. apply snoc_split in E. destruct E as [(-> & -> & ->)|(d' & -> & ->)]; [apply N|eauto].
Qed.

Definition ini_inv (ls : list (list Z)) (sec : list Z) (m : inifile) : Prop :=
  cur_ok ls sec /\ (forall s, mfind str_eqb s m <> None <-> has_header ls s) /\
  (forall s k, last_assignment ls s k (found m s k)) /\
  NoDup (map fst m) /\ (forall s d, mfind str_eqb s m = Some d -> NoDup (map fst d)).

Lemma seqb_refl s : str_eqb s s = true.
Proof. now apply str_eqb_eq. Qed.
Lemma seqb_neq s t : s <> t -> str_eqb s t = false.
Proof. intros H. destruct (str_eqb s t) eqn:E; auto. apply str_eqb_eq in E. contradiction. Qed.

Lemma header_snoc ls x s : has_header (ls ++ [x]) s <-> has_header ls s \/ kind x = KHeader s.
Proof.
  split.
  - intros (y & H & K). apply in_app_iff in H. destruct H as [H|[<-|[]]]; [left; exists y; auto|auto].
  - intros [(y & H & K)|K]; [exists y|exists x]; rewrite in_app_iff; cbn; auto.
Qed.

Lemma ini_step ls sec m x : ini_inv ls sec m -> exists sec' m', load_line sec m x = Ok (sec', m') /\ ini_inv (ls ++ [x]) sec' m'.
Proof.
  intros (C & H & L & N & NN). rewrite load_line_kind. destruct (kind x) as [|s|k v] eqn:K.
  - exists sec, m. split; auto. split; [|split; [|split; [|split; auto]]].
    + destruct C as [C|[-> C]].
      * left. apply in_block_snoc. right. split; auto. intros n. congruence.
      * right. split; auto. intros y n Hy. apply in_app_iff in Hy. destruct Hy as [Hy|[<-|[]]]; auto. congruence.
    + intros s. rewrite H, header_snoc, K. split; [auto|]. intros [?|?]; [auto|discriminate].
    + intros s k. apply last_assignment_no; auto. intros w (_ & _ & _ & E). congruence.
  - eexists. eexists. split; [reflexivity|].
    assert (F : forall s' k', found (match mfind str_eqb s m with Some _ => m | None => mset str_eqb s [] m end) s' k' = found m s' k').
    { intros s' k'. destruct (mfind str_eqb s m) eqn:E; auto. unfold found. rewrite (mfind_mset str_eqb str_eqb_eq).
      destruct (str_eqb s' s) eqn:E2; auto. apply str_eqb_eq in E2. subst s'. rewrite E. reflexivity. }
    split; [|split; [|split; [|split]]].
    + left. apply in_block_snoc. auto.
    + intros s'. rewrite header_snoc, <- H, K. destruct (mfind str_eqb s m) as [d|] eqn:E.
      * split; auto. intros [?|E2]; auto. injection E2 as <-. congruence.
      * rewrite (mfind_mset str_eqb str_eqb_eq). destruct (str_eqb s' s) eqn:E2.
        -- apply str_eqb_eq in E2. subst s'. split; [auto|discriminate].
        -- split; auto. intros [?|E3]; auto. injection E3 as <-. rewrite seqb_refl in E2. discriminate.
    + intros s' k. rewrite F. apply last_assignment_no; auto. intros w (_ & _ & _ & E). congruence.
    + destruct (mfind str_eqb s m); auto. now apply (mset_nodup str_eqb str_eqb_eq).
    + intros s' d. destruct (mfind str_eqb s m) eqn:E; [apply NN|]. rewrite (mfind_mset str_eqb str_eqb_eq).
      destruct (str_eqb s' s); [|apply NN]. intros E2. injection E2 as <-. constructor.
  - assert (Cur : cur_ok (ls ++ [x]) sec).
    { destruct C as [C|[-> C]].
      * left. apply in_block_snoc. right. split; auto. intros n. congruence.
      * right. split; auto. intros y n Hy. apply in_app_iff in Hy. destruct Hy as [Hy|[<-|[]]]; auto. congruence. }
    assert (Hd : forall s, has_header (ls ++ [x]) s <-> has_header ls s).
    { intros s. rewrite header_snoc, K. split; [|auto]. intros [?|?]; [auto|discriminate]. }
    destruct (str_eqb sec [] || str_eqb k []) eqn:EE.
    + exists sec, m. split; auto. split; [auto|]. split; [intros s; now rewrite H, Hd|]. split; [|auto].
      intros s k'. apply last_assignment_no; auto. intros w (B & Hs & Hk & E). rewrite K in E. injection E as <- <-.
      apply (cur_in_block ls sec s C Hs) in B. subst s. apply orb_true_iff in EE. destruct EE as [EE|EE]; apply str_eqb_eq in EE; congruence.
    + apply orb_false_iff in EE. destruct EE as [E1 E2].
      assert (S1 : sec <> []) by (intros ->; rewrite seqb_refl in E1; discriminate).
      assert (K1 : k <> []) by (intros ->; rewrite seqb_refl in E2; discriminate).
      assert (B : in_block ls sec) by (apply (cur_in_block ls sec sec C S1); reflexivity).
      assert (HH : mfind str_eqb sec m <> None).
      { apply H. destruct B as (a & h & b & -> & Hk & _). exists h. split; auto. apply in_app_iff. cbn. auto. }
      destruct (mfind str_eqb sec m) as [d|] eqn:E; [|contradiction].
      eexists. eexists. split; [reflexivity|]. split; [auto|]. split; [|split; [|split]].
      * intros s. rewrite Hd, <- H, (mfind_mset str_eqb str_eqb_eq). destruct (str_eqb s sec) eqn:E3; [|tauto].
        apply str_eqb_eq in E3. subst s. split; congruence.
      * intros s k'. unfold found. rewrite (mfind_mset str_eqb str_eqb_eq). destruct (str_eqb s sec) eqn:E3.
        -- apply str_eqb_eq in E3. subst s. rewrite (mfind_mset str_eqb str_eqb_eq). destruct (str_eqb k' k) eqn:E4.
           ++ apply str_eqb_eq in E4. subst k'. apply last_assignment_yes. repeat split; auto.
           ++ apply last_assignment_no.
              ** intros w (_ & _ & _ & E5). rewrite K in E5. injection E5 as <- <-. rewrite seqb_refl in E4. discriminate.
              ** specialize (L sec k'). unfold found in L. rewrite E in L. exact L.
        -- apply last_assignment_no; [|apply L]. intros w (B' & Hs & _ & _).
           apply (cur_in_block ls sec s C Hs) in B'. subst s. rewrite seqb_refl in E3. discriminate.
      * now apply (mset_nodup str_eqb str_eqb_eq).
      * intros s d'. rewrite (mfind_mset str_eqb str_eqb_eq). destruct (str_eqb s sec); [|apply NN].
        intros E3. injection E3 as <-. apply (mset_nodup str_eqb str_eqb_eq). eapply NN; eauto.
Qed.

Lemma ini_run ls : exists sec m, run_lines [] [] ls = Ok (sec, m) /\ ini_inv ls sec m.
Proof.
  induction ls as [|x ls (sec & m & E & I)] using rev_ind.
  - exists [], []. split; [reflexivity|]. split; [right; auto|]. split; [|split; [|split]].
    + intros s. split; [cbn; congruence|]. intros (y & [] & _).
    + intros s k a x b w E. destruct a; discriminate.
    + constructor.
    + discriminate.
  - rewrite run_lines_snoc, E. cbn [bind]. now apply ini_step.
Qed.

Lemma load_inv text ls : splits text ls -> exists sec m, load text = Ok m /\ ini_inv ls sec m.
Proof.
  intros S. destruct (ini_run ls) as (sec & m & E & I). exists sec, m. split; auto. unfold load.
  rewrite (load_loop_lines text ls S) by lia. rewrite E. reflexivity.
Qed.

Lemma ini_get text ls : splits text ls ->
  exists m, load text = Ok m /\ forall sec key, exists r, last_assignment ls sec key r /\
    forall def, get_string m sec key def = match r with Some v => v | None => def end.
Proof.
  intros S. destruct (load_inv text ls S) as (c & m & E & (C & H & L & N & NN)). exists m. split; auto.
  intros sec key. exists (found m sec key). split; auto. intros def. unfold get_string, found.
  destruct (mfind str_eqb sec m); auto.
Qed.

(** ** Listing *)
Lemma found_assigned ls s k r : last_assignment ls s k r -> (r <> None <-> assigned ls s k).
Proof.
  destruct r as [v|]; cbn.
  - intros (a & x & b & E & A & _). split; [intros _; exists a, x, b, v; auto|discriminate].
  - intros H. split; [congruence|]. intros (a & x & b & v & E & A). exfalso. eapply H; eauto.
Qed.

Lemma ini_lists text ls : splits text ls ->
  exists m, load text = Ok m /\
    (forall r, sections m r -> NoDup r /\ forall s, In s r <-> has_header ls s) /\
    (forall sec r, keys m sec r -> match r with
       | None => ~ has_header ls sec
       | Some r => has_header ls sec /\ NoDup r /\ forall k, In k r <-> assigned ls sec k
       end).
Proof.
  intros S. destruct (load_inv text ls S) as (c & m & E & (C & H & L & N & NN)). exists m. split; auto. split.
  - intros r P. unfold sections in P. split.
    + eapply Permutation_NoDup; [apply Permutation_sym; eauto|auto].
    + intros s. rewrite <- H. split.
      * intros Hin. apply (Permutation_in _ P) in Hin. intros F. apply (mfind_none str_eqb str_eqb_eq) in F. auto.
      * intros Hf. apply (Permutation_in _ (Permutation_sym P)).
        destruct (in_dec (list_eq_dec Z.eq_dec) s (map fst m)); auto. exfalso. apply Hf. now apply (mfind_none str_eqb str_eqb_eq).
  - intros sec r K. unfold keys in K. destruct (mfind str_eqb sec m) as [d|] eqn:Ed, r as [r|]; try contradiction.
    + split; [apply H; congruence|]. split; [eapply Permutation_NoDup; [apply Permutation_sym; eauto|eauto]|].
      intros k. rewrite <- (found_assigned _ _ _ _ (L sec k)). unfold found. rewrite Ed. split.
      * intros Hin. apply (Permutation_in _ K) in Hin. intros F. apply (mfind_none str_eqb str_eqb_eq) in F. auto.
      * intros Hf. apply (Permutation_in _ (Permutation_sym K)).
        destruct (in_dec (list_eq_dec Z.eq_dec) k (map fst d)); auto. exfalso. apply Hf. now apply (mfind_none str_eqb str_eqb_eq).
    + intros F. apply H in F. congruence.
Qed.

(** ** Texts without effect *)
Lemma ini_ignored before noise after text1 text2 :
  (forall x, In x noise -> kind x = KNone) ->
  splits text1 (before ++ after) -> splits text2 (before ++ noise ++ after) -> load text1 = load text2.
Proof.
  intros H S1 S2. unfold load. rewrite (load_loop_lines _ _ S1) by lia. rewrite (load_loop_lines _ _ S2) by lia.
  assert (N : forall sec m ls, run_lines sec m (noise ++ ls) = run_lines sec m ls).
  { clear S1 S2. induction noise as [|x t IH]; intros sec m ls; auto. cbn [app run_lines]. rewrite load_line_kind, (H x) by (cbn; auto).
    cbn [bind]. apply IH. intros y Hy. apply H. cbn. auto. }
  assert (G : forall sec m, run_lines sec m (before ++ after) = run_lines sec m (before ++ noise ++ after)).
  { clear S1 S2. induction before as [|x t IH]; intros sec m; cbn [app].
    - now rewrite N.
    - cbn [run_lines]. destruct (load_line sec m x) as [[? ?]| |]; cbn [bind]; auto. }
  now rewrite G.
Qed.
