From Coq Require Import String.
From Coq Require Import ZArith List Bool Lia.
From Verif Require Import GoBase GoLists QueueProofs RingProofs GoStrings MathModel ConcBase RegModel RegSpec RegProofs SpinProofs ErrConcModel ErrConcSpec.
Import ListNotations.
Open Scope Z_scope.

Local Notation unknown := (bytes_of "unknown error").

Lemma ec_at_snoc sched t op : ec_at (sched ++ [(t, op)]) = fst (ec_step (ec_at sched) t op).
Proof. unfold ec_at. rewrite crun_snoc. reflexivity. Qed.

Lemma good_cur s a : er_rel s a -> er_cur s = 1001 + zlen a /\ 0 <= zlen a <= 8998 /\ er_names s = unknown :: a.
Proof. intros [E A]. rewrite E. pose proof (zlen_nonneg a). cbn [er_cur er_names]. auto. Qed.

(** Calls other than ShowAll. *)
Definition lrel (s : ec_state) (a : list (list Z)) (st : nat -> tstat er_op er_res) : Prop :=
  er_rel (ec_errs s) a /\ forall t,
    match ec_pcs s t with
    | XIdle => st t = TIdle
    | XCall op => st t = TPend op /\ er_ok op /\ op <> EShowAll
    | XRet op r => st t = TDone op r
    | _ => False
    end.
Lemma lrel_upd e e' pcs a a' st t pc x : lrel (EcState e pcs) a st -> er_rel e' a' ->
  match pc with
  | XIdle => x = TIdle
  | XCall op => x = TPend op /\ er_ok op /\ op <> EShowAll
  | XRet op r => x = TDone op r
  | _ => False
  end -> lrel (EcState e' (fupd pcs t pc)) a' (fupd st t x).
Proof.
  intros [_ H] E P. split; [exact E|]. intros u. cbn [ec_pcs]. unfold fupd. destruct (Nat.eqb_spec u t); [exact P|]. apply (H u).
Qed.
Lemma er_step_ec e a o : er_ok o -> er_rel e a -> exists e', er_step e o = Ok (e', snd (er_spec a o)) /\ er_rel e' (fst (er_spec a o)).
Proof. apply er_step_sim. Qed.
Lemma ec_call s t o op : o <> EShowAll -> ec_pcs s t = XCall o ->
  ec_step s t op = match er_step (ec_errs s) o with
                   | Ok (e', r) => (EcState e' (fupd (ec_pcs s) t (XRet o r)), [])
                   | _ => (EcState (ec_errs s) (fupd (ec_pcs s) t XDead), [])
                   end.
Proof. intros N E. unfold ec_step. rewrite E. destruct o; try reflexivity. congruence. Qed.
Lemma ec_lin sched : Forall (fun e => er_ok (snd e) /\ snd e <> EShowAll) sched ->
  linearizable er_seq [] (snd (crun ec_step ec_init sched)).
Proof.
  intros F.
  destruct (lin_sim_on er_seq ec_step lrel (fun _ op => er_ok op /\ op <> EShowAll)) with
    (sched := sched) (s := ec_init) (a := @nil (list Z)) (st := fun _ : nat => @TIdle er_op er_res) as (evs & a' & st' & E & L & _).
  - intros [e pcs] a st t op [OK NS] R. pose proof R as [ER PT]. pose proof (PT t) as Pt. cbn [ec_errs ec_pcs] in *.
    destruct (pcs t) as [|o|buf id|buf id|o r|] eqn:PC; try tauto.
    + exists [AInv t op], a, (fupd st t (TPend op)). unfold ec_step. cbn [ec_pcs]. rewrite PC. split; [reflexivity|]. split.
      * eapply lr_inv; [exact Pt|constructor].
      * eapply lrel_upd; [exact R|exact ER|auto].
    + destruct Pt as (Pt & OKo & NSo). rewrite (ec_call (EcState e pcs) t o op NSo PC). cbn [ec_errs ec_pcs].
      destruct (er_step_sim e a o OKo ER) as (e' & -> & ER'). destruct (er_spec a o) as [a2 r] eqn:SP. cbn [fst snd] in *.
      exists [ALin t o r], a2, (fupd st t (TDone o r)). split; [reflexivity|]. split.
      * eapply lr_lin; [exact Pt|exact SP|constructor].
      * eapply lrel_upd; [exact R|exact ER'|reflexivity].
    + exists [ARet t o r], a, (fupd st t TIdle). unfold ec_step. cbn [ec_pcs]. rewrite PC. split; [reflexivity|]. split.
      * eapply lr_ret; [exact Pt|constructor].
      * eapply lrel_upd; [exact R|exact ER|reflexivity].
  - exact F.
  - split; [apply er_rel_start|]. intros t. reflexivity.
  - exists evs, a', st'. auto.
Qed.

(** ShowAll. *)
Definition head (n : nat) : list Z := bytes_of "[errors] Count:" ++ fmt_d (Z.of_nat n).
Definition tinv (sched : list (nat * er_op)) (t : nat) : Prop :=
  match ec_pcs (ec_at sched) t with
  | XIdle => True
  | XCall op => er_ok op /\ (op = EShowAll -> exists l0 l, sched = l0 ++ l /\ in_call t EShowAll l0 l)
  | XLoop buf id => exists k, id = 1001 + Z.of_nat k /\ (k <= length (names_at sched))%nat /\
      exists l0 l1 l2, sched = l0 ++ l1 ++ l2 /\ in_call t EShowAll l0 (l1 ++ l2) /\
        buf = head (length (names_at (l0 ++ l1))) ++ err_lines 1001 (firstn k (names_at sched))
  | XStr buf id => exists k, id = 1001 + Z.of_nat k /\ (k < length (names_at sched))%nat /\
      exists l0 l1 l2, sched = l0 ++ l1 ++ l2 /\ in_call t EShowAll l0 (l1 ++ l2) /\
        buf = head (length (names_at (l0 ++ l1))) ++ err_lines 1001 (firstn k (names_at sched)) ++ [10]
  | XRet EShowAll r =>
      exists l0 l1 l2 l3, sched = l0 ++ l1 ++ l2 ++ l3 /\ in_call t EShowAll l0 (l1 ++ l2 ++ l3) /\
        r = EStr (report (length (names_at (l0 ++ l1))) (names_at (l0 ++ l1 ++ l2)))
  | XRet _ _ => True
  | XDead => False
  end.
Definition einv (sched : list (nat * er_op)) : Prop :=
  (exists a, er_rel (ec_errs (ec_at sched)) a) /\ forall t, tinv sched t.

Lemma in_call_snoc t op l0 l e : in_call t op l0 l -> ec_pcs (ec_at ((l0 ++ l) ++ [e])) t <> XIdle -> in_call t op l0 (l ++ [e]).
Proof.
  intros (A & (rest & ->) & C) N. split; [exact A|]. split; [exists (rest ++ [e]); reflexivity|]. intros p q E NE.
  destruct q as [|y q _] using rev_ind.
  - rewrite app_nil_r in E. subst p. rewrite app_assoc. exact N.
  - rewrite app_assoc in E. apply app_inj_tail in E as [E _]. exact (C p q E NE).
Qed.

Lemma lines_app id l x : err_lines id (l ++ [x]) = err_lines id l ++ [10] ++ err_line (id + zlen l) x.
Proof.
  revert id. induction l as [|y l IH]; intros id; cbn [err_lines app].
  - unfold zlen. cbn [length]. rewrite Z.add_0_r, app_nil_r. reflexivity.
  - rewrite IH. replace (id + zlen (y :: l)) with (id + 1 + zlen l) by (unfold zlen; cbn [length]; lia).
    rewrite <- !app_assoc. reflexivity.
Qed.
Lemma firstn_S_nth {X} (l : list X) k x : nth_error l k = Some x -> firstn (S k) l = firstn k l ++ [x].
Proof.
  revert l. induction k as [|k IH]; intros [|y l] E; cbn in E; try discriminate.
  - injection E as ->. reflexivity.
  - change (firstn (S (S k)) (y :: l)) with (y :: firstn (S k) l). rewrite (IH l E). reflexivity.
Qed.

Lemma step_names sched t op : einv sched -> 
  (exists a, er_rel (ec_errs (fst (ec_step (ec_at sched) t op))) a) /\
  exists xs, er_names (ec_errs (fst (ec_step (ec_at sched) t op))) = names_at sched ++ xs.
Proof.
  intros [[a ER] T]. specialize (T t). unfold tinv in T. unfold names_at.
  assert (SAME: forall pc, (exists b, er_rel (ec_errs (EcState (ec_errs (ec_at sched)) pc)) b) /\
     exists xs, er_names (ec_errs (EcState (ec_errs (ec_at sched)) pc)) = er_names (ec_errs (ec_at sched)) ++ xs).
  { intros pc. split; [exists a; exact ER|exists []; symmetry; apply app_nil_r]. }
  destruct (ec_pcs (ec_at sched) t) as [|o|buf id|buf id|o r|] eqn:PC.
  1,3,4,5: unfold ec_step; rewrite PC; try destruct (_ <=? _); try destruct (err_string _ _); apply SAME.
  - destruct o as [name|id|id|id msg|].
    5: unfold ec_step; rewrite PC; apply SAME.
    all: match type of PC with _ = XCall ?o => rewrite (ec_call (ec_at sched) t o op ltac:(discriminate) PC) end;
         match goal with |- context [er_step _ ?o] => destruct (er_step_sim _ a o (proj1 T) ER) as (e' & E & ER') end;
         pose proof (good_cur _ _ ER) as (_ & _ & N); pose proof (good_cur _ _ ER') as (_ & _ & N'); rewrite E; cbn [fst ec_errs];
         (split; [eexists; exact ER'|]); rewrite N, N'; cbn [er_spec].
    + destruct (zlen a <? 8998); cbn [fst]; [exists [name]; reflexivity|exists []; symmetry; apply app_nil_r].
    + exists []. symmetry. apply app_nil_r.
    + exists []. symmetry. apply app_nil_r.
    + exists []. symmetry. apply app_nil_r.
  - tauto.
Qed.
Lemma err_string_ok e a k : er_rel e a -> (k < length (er_names e))%nat ->
  exists n, nth_error (er_names e) k = Some n /\ err_string e (1001 + Z.of_nat k) = Ok (err_line (1001 + Z.of_nat k) n).
Proof.
  intros R K. pose proof (good_cur _ _ R) as (C & A & N). rewrite N in K. cbn [length] in K.
  assert (zlen a = Z.of_nat (length a)) by reflexivity.
  rewrite (err_string_spec e a) by (auto; lia). rewrite N. unfold err_name. destruct k as [|k].
  - exists unknown. split; reflexivity.
  - destruct (Z.eqb_spec (1001 + Z.of_nat (S k)) 1001); [lia|]. destruct (Z.leb_spec 1002 (1001 + Z.of_nat (S k))); [|lia].
    replace (Z.to_nat (1001 + Z.of_nat (S k) - 1002)) with k by lia. cbn [nth_error].
    destruct (nth_error a k) as [nm|] eqn:E; [exists nm; auto|]. apply nth_error_None in E. lia.
Qed.

Lemma other_pc s u t op : t <> u -> ec_pcs (fst (ec_step s u op)) t = ec_pcs s t.
Proof.
  intros NE. unfold ec_step. destruct (ec_pcs s u) as [|[]|buf id|buf id|o r|]; try destruct (er_step _ _) as [[]| |];
  try destruct (_ <=? _); try destruct (err_string _ _); cbn [fst ec_pcs]; try rewrite fupd_other by congruence; reflexivity.
Qed.

Lemma einv_step sched u op : er_ok op -> einv sched -> einv (sched ++ [(u, op)]).
Proof.
  intros OK EI. pose proof EI as [[a ER] T]. destruct (step_names sched u op EI) as [G [xs NX]]. rewrite <- ec_at_snoc in G, NX.
  change (er_names (ec_errs (ec_at (sched ++ [(u, op)])))) with (names_at (sched ++ [(u, op)])) in NX.
  split; [exact G|]. intros t. specialize (T t). unfold tinv in *. rewrite NX.
  assert (FN: forall k, (k <= length (names_at sched))%nat -> firstn k (names_at sched ++ xs) = firstn k (names_at sched)).
  { intros k K. rewrite firstn_app. replace (k - length (names_at sched))%nat with 0%nat by lia. apply app_nil_r. }
  assert (SN: ec_at (sched ++ [(u, op)]) = fst (ec_step (ec_at sched) u op)) by apply ec_at_snoc.
  destruct (Nat.eq_dec t u) as [<-|NE].
  - (* the goroutine itself *)
    assert (IC: forall l0 l, sched = l0 ++ l -> in_call t EShowAll l0 l -> ec_pcs (fst (ec_step (ec_at sched) t op)) t <> XIdle ->
                in_call t EShowAll l0 (l ++ [(t, op)])).
    { intros l0 l -> I N. apply in_call_snoc; [exact I|]. rewrite SN. exact N. }
    destruct (ec_pcs (ec_at sched) t) as [|o|buf id|buf id|o r|] eqn:PC.
    + rewrite SN. unfold ec_step at 1. rewrite PC. cbn [fst ec_pcs]. rewrite fupd_same. split; [exact OK|]. intros ->.
      exists sched, [(t, EShowAll)]. split; [reflexivity|]. split; [exact PC|]. split; [exists []; reflexivity|].
      intros p q E NE. destruct p as [|e p]; [congruence|]. injection E as <- E. symmetry in E. apply app_eq_nil in E as [-> _].
      rewrite SN. unfold ec_step. rewrite PC. cbn [fst ec_pcs]. rewrite fupd_same. discriminate.
    + destruct T as [OKo T]. destruct o as [name|id|id|id msg|].
      5:{ destruct (T eq_refl) as (l0 & l & EQ & I). rewrite SN. unfold ec_step at 1. rewrite PC. cbn [fst ec_pcs]. rewrite fupd_same.
          exists 0%nat. split; [reflexivity|]. split; [lia|]. exists l0, l, [(t, op)].
          split; [rewrite EQ, <- app_assoc; reflexivity|]. split.
          - apply IC; [exact EQ|exact I|]. unfold ec_step. rewrite PC. cbn [fst ec_pcs]. rewrite fupd_same. discriminate.
          - cbn [firstn err_lines]. rewrite app_nil_r. unfold head. rewrite <- EQ. unfold names_at.
            pose proof (good_cur _ _ ER) as (C & A & N). rewrite C, N. unfold g_id_min. cbn [length].
            do 2 f_equal. rewrite (wrap_small 32 (1001 + zlen a - 1001)) by lia. rewrite wrap_small by lia. unfold zlen. lia. }
      all: rewrite SN; match type of PC with _ = XCall ?o => rewrite (ec_call (ec_at sched) t o op ltac:(discriminate) PC) end;
         match goal with |- context [er_step _ ?o] => destruct (er_step_sim _ a o OKo ER) as (e' & E & ER') end;
         rewrite E; cbn [fst ec_pcs]; rewrite fupd_same; exact Logic.I.
    + destruct T as (k & ID & K & l0 & l1 & l2 & EQ & I & B). rewrite SN. unfold ec_step at 1. rewrite PC.
      pose proof (good_cur _ _ ER) as (C & A & N).
      assert (LN: length (names_at sched) = S (length a)) by (unfold names_at; rewrite N; reflexivity).
      assert (zlen a = Z.of_nat (length a)) by reflexivity.
      assert (IC2: in_call t EShowAll l0 (l1 ++ l2 ++ [(t, op)])).
      { rewrite (app_assoc l1). apply IC; [exact EQ|exact I|]. unfold ec_step. rewrite PC.
        destruct (id <=? er_cur (ec_errs (ec_at sched))); cbn [fst ec_pcs]; rewrite fupd_same; discriminate. }
      destruct (Z.leb_spec id (er_cur (ec_errs (ec_at sched)))) as [LE|GT]; cbn [fst ec_pcs]; rewrite fupd_same.
      * exists k. split; [exact ID|]. split; [rewrite app_length; lia|]. exists l0, l1, (l2 ++ [(t, op)]).
        split; [rewrite EQ, <- !app_assoc; reflexivity|]. split; [exact IC2|]. rewrite FN by exact K. rewrite B, <- !app_assoc. reflexivity.
      * exists l0, l1, l2, [(t, op)]. split; [rewrite EQ, <- !app_assoc; reflexivity|]. split; [exact IC2|].
        assert (KE: k = length (names_at sched)) by lia. f_equal. rewrite B, KE, firstn_all, EQ. unfold report, head. rewrite <- app_assoc. reflexivity.
    + destruct T as (k & ID & K & l0 & l1 & l2 & EQ & I & B). rewrite SN.
      destruct (err_string_ok _ a k ER K) as (n & NTH & ES). pose proof (good_cur _ _ ER) as (C & A & N).
      assert (LN: length (names_at sched) = S (length a)) by (unfold names_at; rewrite N; reflexivity).
      assert (zlen a = Z.of_nat (length a)) by reflexivity.
      assert (IC2: in_call t EShowAll l0 (l1 ++ l2 ++ [(t, op)])).
      { rewrite (app_assoc l1). apply IC; [exact EQ|exact I|]. unfold ec_step. rewrite PC, ID, ES. cbn [fst ec_pcs]. rewrite fupd_same. discriminate. }
      unfold ec_step at 1. rewrite PC, ID, ES. cbn [fst ec_pcs]. rewrite fupd_same.
      exists (S k). split; [rewrite wrap_small by lia; lia|]. split; [rewrite app_length; lia|]. exists l0, l1, (l2 ++ [(t, op)]).
      split; [rewrite EQ, <- !app_assoc; reflexivity|]. split; [exact IC2|]. rewrite FN by lia.
      rewrite (firstn_S_nth (names_at sched) _ _ NTH), lines_app, B. rewrite <- !app_assoc. do 4 f_equal.
      unfold zlen. rewrite firstn_length_le by lia. reflexivity.
    + rewrite SN. unfold ec_step at 1. rewrite PC. cbn [fst ec_pcs]. rewrite fupd_same. exact Logic.I.
    + tauto.
  - (* another goroutine *)
    assert (PCE: ec_pcs (ec_at (sched ++ [(u, op)])) t = ec_pcs (ec_at sched) t) by (rewrite SN; apply other_pc; exact NE).
    assert (IC: forall l0 l, sched = l0 ++ l -> in_call t EShowAll l0 l -> ec_pcs (ec_at sched) t <> XIdle ->
                in_call t EShowAll l0 (l ++ [(u, op)])).
    { intros l0 l -> I N. apply in_call_snoc; [exact I|]. rewrite PCE. exact N. }
    rewrite PCE. destruct (ec_pcs (ec_at sched) t) as [|o|buf id|buf id|o r|] eqn:PC; try exact T.
    + destruct T as [OKo T]. split; [exact OKo|]. intros E. destruct (T E) as (l0 & l & EQ & I). exists l0, (l ++ [(u, op)]).
      split; [rewrite EQ, <- app_assoc; reflexivity|]. apply IC; [exact EQ|exact I|discriminate].
    + destruct T as (k & ID & K & l0 & l1 & l2 & EQ & I & B). exists k. split; [exact ID|]. split; [rewrite app_length; lia|].
      exists l0, l1, (l2 ++ [(u, op)]). split; [rewrite EQ, <- !app_assoc; reflexivity|].
      split; [rewrite (app_assoc l1); apply IC; [exact EQ|exact I|discriminate]|]. rewrite FN by exact K. exact B.
    + destruct T as (k & ID & K & l0 & l1 & l2 & EQ & I & B). exists k. split; [exact ID|]. split; [rewrite app_length; lia|].
      exists l0, l1, (l2 ++ [(u, op)]). split; [rewrite EQ, <- !app_assoc; reflexivity|].
      split; [rewrite (app_assoc l1); apply IC; [exact EQ|exact I|discriminate]|]. rewrite FN by lia. exact B.
    + destruct o; try exact T. destruct T as (l0 & l1 & l2 & l3 & EQ & I & B). exists l0, l1, l2, (l3 ++ [(u, op)]).
      split; [rewrite EQ, <- !app_assoc; reflexivity|]. split; [|exact B].
      rewrite (app_assoc l2), (app_assoc l1). apply IC; [exact EQ|exact I|discriminate].
Qed.
Lemma einv_all sched : sched_ok sched -> einv sched.
Proof.
  induction sched as [|[t op] sched IH] using rev_ind; intros F.
  - split; [exists []; apply er_rel_start|]. intros t. exact Logic.I.
  - apply Forall_app in F as [F1 F2]. inversion F2; subst. apply einv_step; [assumption|apply IH; exact F1].
Qed.
Lemma no_dead sched t : sched_ok sched -> ec_pcs (ec_at sched) t <> XDead.
Proof. intros F E. destruct (einv_all sched F) as [_ T]. specialize (T t). unfold tinv in T. rewrite E in T. exact T. Qed.
