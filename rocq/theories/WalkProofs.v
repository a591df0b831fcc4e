(** Proofs about Walk and Statistic. *)
From Coq Require Import ZArith List Bool Lia Sorted Permutation.
From Verif Require Import GoBase PathSpec PathModel PathProofs FsModel WalkSpec WalkModel.
Import ListNotations.
Open Scope Z_scope.

(** ** Induction over trees *)
Section Ind.
  Variable P : wnode -> Prop.
  Hypothesis HF : forall nm sz, P (WFile nm sz).
  Hypothesis HD : forall nm kids, Forall P kids -> P (WDir nm kids).
  Hypothesis HS : forall nm e, P (WShut nm e).
  Hypothesis HL : forall nm e, P (WLost nm e).
  Fixpoint wnode_deep (n : wnode) : P n :=
    match n with
    | WFile nm sz => HF nm sz
    | WDir nm kids => HD nm kids ((fix all (l : list wnode) : Forall P l := match l with [] => Forall_nil _ | k :: l => Forall_cons k (wnode_deep k) (all l) end) kids)
    | WShut nm e => HS nm e
    | WLost nm e => HL nm e
    end.
End Ind.

(** ** Sorting *)
Lemma str_less_lt a : forall b, str_less a b = true <-> bytes_lt a b.
Proof.
  induction a as [|x a IH]; intros [|y b]; cbn; try (split; [discriminate|tauto]); [split; auto|].
  rewrite orb_true_iff, andb_true_iff, IH. split; intros [H|[H1 H2]]; [left; lia|right; split; [lia|assumption]|left; lia|right; split; [lia|assumption]].
Qed.
Lemma bytes_total a : forall b, bytes_lt a b \/ a = b \/ bytes_lt b a.
Proof.
  induction a as [|x a IH]; intros [|y b]; cbn; auto. destruct (Z.lt_trichotomy x y) as [H|[H|H]]; auto.
  subst. destruct (IH b) as [H|[H|H]]; [auto|subst; auto|auto].
Qed.
Lemma bytes_trans a : forall b c, bytes_lt a b -> bytes_lt b c -> bytes_lt a c.
Proof.
  induction a as [|x a IH]; intros [|y b] [|z c]; cbn; try tauto. intros [H1|[H1 H2]] [H3|[H3 H4]]; try (left; lia). right. split; [lia|]. now apply (IH b).
Qed.
Lemma insert_perm {A} (x : list Z * A) l : Permutation (insert_name x l) (x :: l).
Proof.
  induction l as [|y l IH]; [reflexivity|]. cbn. destruct (str_less _ _); [|reflexivity]. rewrite IH. constructor.
Qed.
Lemma sort_perm {A} (l : list (list Z * A)) : Permutation (sort_names l) l.
Proof. induction l as [|x l IH]; [reflexivity|]. cbn. rewrite insert_perm. now constructor. Qed.
Lemma insert_map {A B} (h : A -> B) x l :
  insert_name (fst x, h (snd x)) (map (fun y => (fst y, h (snd y))) l) = map (fun y => (fst y, h (snd y))) (insert_name x l).
Proof. induction l as [|y l IH]; [reflexivity|]. cbn. destruct (str_less _ _); cbn; [now rewrite IH|reflexivity]. Qed.
Lemma sort_map {A B} (h : A -> B) l :
  sort_names (map (fun y => (fst y, h (snd y))) l) = map (fun y => (fst y, h (snd y))) (sort_names l).
Proof. induction l as [|y l IH]; [reflexivity|]. cbn [map sort_names]. now rewrite IH, insert_map. Qed.
Definition sorted_kids (l : list wnode) : list wnode := map snd (sort_names (map (fun k => (wname_of k, k)) l)).
Lemma sort_kids {B} (h : wnode -> B) l : sort_names (map (fun k => (wname_of k, h k)) l) = map (fun k => (wname_of k, h k)) (sorted_kids l).
Proof.
  assert (E : map (fun k => (wname_of k, h k)) l = map (fun y => (fst y, h (snd y))) (map (fun k => (wname_of k, k)) l)) by (rewrite map_map; reflexivity).
  rewrite E, sort_map. unfold sorted_kids. rewrite map_map.
  assert (F : Forall (fun y => fst y = wname_of (snd y)) (sort_names (map (fun k => (wname_of k, k)) l))).
  { rewrite (sort_perm (map (fun k => (wname_of k, k)) l)). apply Forall_map. apply Forall_forall. reflexivity. }
  revert F. generalize (sort_names (map (fun k => (wname_of k, k)) l)). clear. intros l F. induction F as [|y l Y _ IH]; [reflexivity|]. cbn. now rewrite IH, Y.
Qed.
Lemma kids_perm l : Permutation (sorted_kids l) l.
Proof.
  unfold sorted_kids. rewrite (sort_perm (map (fun k => (wname_of k, k)) l)). rewrite map_map. now rewrite map_id.
Qed.
Definition klt (a b : wnode) : Prop := bytes_lt (wname_of a) (wname_of b).
Lemma insert_sorted {A} (x : list Z * A) l : StronglySorted (fun a b => bytes_lt (fst a) (fst b)) l -> ~ In (fst x) (map fst l) ->
  StronglySorted (fun a b => bytes_lt (fst a) (fst b)) (insert_name x l).
Proof.
  intros H N. induction H as [|y l HS IH HF]; cbn; [repeat constructor|]. destruct (str_less (fst y) (fst x)) eqn:E.
  - constructor; [apply IH; cbn in N; tauto|]. rewrite (insert_perm x l). constructor; [now apply str_less_lt|assumption].
  - assert (L : bytes_lt (fst x) (fst y)).
    { destruct (bytes_total (fst x) (fst y)) as [H|[H|H]]; [assumption|exfalso; apply N; cbn; auto|]. apply str_less_lt in H. congruence. }
    constructor; [now constructor|]. constructor; [assumption|]. eapply Forall_impl; [|exact HF]. intros z Hz. cbn in *. now apply (bytes_trans _ (fst y)).
Qed.
Lemma sort_sorted {A} (l : list (list Z * A)) : NoDup (map fst l) -> StronglySorted (fun a b => bytes_lt (fst a) (fst b)) (sort_names l).
Proof.
  induction l as [|x l IH]; intros N; [constructor|]. cbn in *. inversion N as [|? ? N1 N2]; subst. apply insert_sorted; [auto|].
  intros I. apply N1. eapply Permutation_in; [|exact I]. apply Permutation_map, sort_perm.
Qed.
Lemma kids_sorted l : NoDup (map wname_of l) -> StronglySorted klt (sorted_kids l).
Proof.
  intros N. pose proof (sort_sorted (map (fun k => (wname_of k, k)) l)) as H. rewrite map_map in H. specialize (H N).
  pose proof (sort_kids (fun k => k) l) as E. rewrite E in H. revert H. generalize (sorted_kids l). clear.
  intros l H. induction l as [|x l IH]; [constructor|]. cbn in H. inversion H as [|? ? H1 H2]; subst. constructor; [auto|]. rewrite Forall_map in H2. exact H2.
Qed.
Lemma kids_nodup l : NoDup (map wname_of l) -> NoDup (map wname_of (sorted_kids l)).
Proof. intros N. eapply Permutation_NoDup; [|exact N]. apply Permutation_sym, Permutation_map, kids_perm. Qed.

(** ** The visits of a tree in order *)
Definition push (x : list Z) (e : list (list Z) * visit) : list (list Z) * visit := (x :: fst e, snd e).
Fixpoint events (n : wnode) : list (list (list Z) * visit) :=
  match n with
  | WFile nm sz => [([], VEntry {| fi_name := nm; fi_dir := false; fi_size := sz |})]
  | WLost _ e => [([], VLost e)]
  | WShut nm e => [([], VEntry {| fi_name := nm; fi_dir := true; fi_size := 0 |}); ([], VShut {| fi_name := nm; fi_dir := true; fi_size := 0 |} e)]
  | WDir nm kids => ([], VEntry {| fi_name := nm; fi_dir := true; fi_size := 0 |}) ::
                    concat (map (fun '(x, es) => map (push x) es) (sort_names (map (fun k => (wname_of k, events k)) kids)))
  end.
Lemma events_dir nm kids : events (WDir nm kids) = ([], VEntry {| fi_name := nm; fi_dir := true; fi_size := 0 |}) ::
  concat (map (fun k => map (push (wname_of k)) (events k)) (sorted_kids kids)).
Proof. cbn [events]. rewrite sort_kids, map_map. reflexivity. Qed.
Lemma events_iff n : forall e, In e (events n) <-> belongs n e.
Proof.
  unfold belongs. induction n as [nm sz|nm kids IH|nm er|nm er] using wnode_deep; intros [cs v]; cbn [fst snd].
  - cbn. split.
    + intros [E|[]]. inversion E; subst. exists (WFile nm sz). split; [constructor|reflexivity].
    + intros (m & D & V). inversion D; subst. cbn in V. subst. auto.
  - rewrite events_dir. split.
    + intros [E|I]; [inversion E; subst; exists (WDir nm kids); split; [constructor|reflexivity]|].
      apply in_concat in I as (l & IL & I). apply in_map_iff in IL as (k & <- & IK). apply in_map_iff in I as ([cs' v'] & E & I). unfold push in E. cbn in E. inversion E; subst.
      apply (Permutation_in _ (kids_perm kids)) in IK. rewrite Forall_forall in IH. apply (IH k IK) in I as (m & D & V). exists m. split; [now constructor|assumption].
    + intros (m & D & V). inversion D as [|? ? k cs' ? IK D']; subst; [cbn in V; subst; now left|]. right. apply in_concat.
      exists (map (push (wname_of k)) (events k)). split; [apply (in_map (fun k => map (push (wname_of k)) (events k))), (Permutation_in _ (Permutation_sym (kids_perm kids)) IK)|].
      apply in_map_iff. exists (cs', v). split; [reflexivity|]. rewrite Forall_forall in IH. apply (IH k IK). exists m. auto.
  - cbn. split.
    + intros [E|[E|[]]]; inversion E; subst; exists (WShut nm er); (split; [constructor|]); cbn; auto.
    + intros (m & D & V). inversion D; subst. cbn in V. destruct V; subst; auto.
  - cbn. split.
    + intros [E|[]]. inversion E; subst. exists (WLost nm er). split; [constructor|reflexivity].
    + intros (m & D & V). inversion D; subst. cbn in V. subst. auto.
Qed.
Lemma sorted_app {A} (R : A -> A -> Prop) l m : StronglySorted R l -> StronglySorted R m -> (forall a b, In a l -> In b m -> R a b) -> StronglySorted R (l ++ m).
Proof.
  intros HL HM H. induction HL as [|x l HL IH F]; [assumption|]. cbn. constructor; [apply IH; intros; apply H; cbn; auto|].
  apply Forall_app. split; [assumption|]. apply Forall_forall. intros b I. apply H; [now left|assumption].
Qed.
Lemma push_earlier x a b : earlier a b -> earlier (push x a) (push x b).
Proof. intros [H|[E H]]; [left; cbn; auto|right; cbn; split; [congruence|assumption]]. Qed.
Lemma events_sorted n : proper n -> StronglySorted earlier (events n).
Proof.
  induction n as [nm sz|nm kids IH|nm er|nm er] using wnode_deep; intros PR.
  - repeat constructor.
  - rewrite events_dir. inversion PR as [| | |? ? ND _ FP]; subst.
    assert (IK : Forall (fun k => StronglySorted earlier (events k)) (sorted_kids kids)).
    { rewrite kids_perm. rewrite Forall_forall in *. auto. }
    pose proof (kids_sorted kids ND) as KS. revert IK KS. generalize (sorted_kids kids). clear. intros l IK KS. constructor.
    + induction KS as [|k l KS IHl F]; [constructor|]. inversion IK as [|? ? I1 I2]; subst. cbn [map concat]. apply sorted_app; [|now apply IHl|].
      * clear - I1. induction I1 as [|e es H1 H2 H3]; [constructor|]. cbn. constructor; [assumption|]. rewrite Forall_map. eapply Forall_impl; [|exact H3]. intros b. apply push_earlier.
      * intros a b IA IB. apply in_map_iff in IA as (a' & <- & _). apply in_concat in IB as (es & IE & IB). apply in_map_iff in IE as (k' & <- & IK').
        apply in_map_iff in IB as (b' & <- & _). left. cbn. left. rewrite Forall_forall in F. exact (F k' IK').
    + apply Forall_forall. intros e I. apply in_concat in I as (es & IE & I). apply in_map_iff in IE as (k' & <- & _). apply in_map_iff in I as (e' & <- & _). left. exact Logic.I.
  - constructor; [repeat constructor|]. constructor; [|constructor]. right. cbn. auto.
  - repeat constructor.
Qed.

(** ** Walking is calling the function for the visits in turn *)
Section Walking.
  Variables (S E : Type).
  Variable fn : S -> list Z -> option finfo -> option (list Z) -> S * answer E.
  Variable root : list Z.
  Definition pt (cs : list (list Z)) : list Z := fold_left (fun p x => fp_join [p; x]) cs root.
  Definition fn' (s : S) (cs : list (list Z)) (v : visit) : S * answer E := fn s (pt cs) (fst (told v)) (snd (told v)).
  Notation run := (run S E fn').
  Lemma run_ext L : forall s k1 k2, (forall e, In e L -> existsb (fun d => hidden_by d e) k1 = existsb (fun d => hidden_by d e) k2) -> run s k1 L = run s k2 L.
  Proof.
    induction L as [|e L IH]; intros s k1 k2 H; [reflexivity|]. cbn [WalkSpec.run]. rewrite (H e) by (now left).
    destruct (existsb _ k2); [apply IH; intros; apply H; now right|]. destruct (fn' s (fst e) (snd e)) as [s' [| |x]]; [apply IH; intros; apply H; now right| |reflexivity].
    apply IH. intros e' I. rewrite !existsb_app. f_equal. apply H. now right.
  Qed.
  Lemma run_drop R L : forall s k, (forall e, In e R -> existsb (fun d => hidden_by d e) k = true) -> run s k (R ++ L) = run s k L.
  Proof. induction R as [|e R IH]; intros s k H; [reflexivity|]. cbn [app WalkSpec.run]. rewrite (H e) by (now left). apply IH. intros; apply H; now right. Qed.
  Definition shift (cs : list (list Z)) (e : list (list Z) * visit) : list (list Z) * visit := (cs ++ fst e, snd e).
  Lemma shift_push cs x l : map (shift cs) (map (push x) l) = map (shift (cs ++ [x])) l.
  Proof. rewrite map_map. apply map_ext. intros [a b]. unfold shift, push. cbn. now rewrite <- app_assoc. Qed.
  Lemma pt_snoc cs x : pt (cs ++ [x]) = fp_join [pt cs; x].
  Proof. unfold pt. rewrite fold_left_app. reflexivity. Qed.
  Definition outside (k : list (list (list Z))) (cs : list (list Z)) : Prop := forall d r v, In d k -> hidden_by d (cs ++ r, v) = false.
  Definition far (cs : list (list Z)) (L : list (list (list Z) * visit)) : Prop := forall e r, In e L -> fst e <> cs ++ r.
  Lemma inside_iff d : forall c, inside d c = true <-> exists x r, c = d ++ x :: r.
  Proof.
    induction d as [|y d IH]; intros [|z c]; cbn; try (split; [discriminate|intros (x & r & H); discriminate]).
    - split; [intros _; eauto|reflexivity].
    - destruct (list_eq_dec Z.eq_dec y z) as [->|N].
      + rewrite IH. split; intros (x & r & H); exists x, r; congruence.
      + split; [discriminate|]. intros (x & r & H). congruence.
  Qed.
  Lemma inside_not d c : inside d c = false <-> forall x r, c <> d ++ x :: r.
  Proof.
    split; intros H.
    - intros x r HC. assert (inside d c = true) by (apply inside_iff; eauto). congruence.
    - apply not_true_iff_false. intros HC. apply inside_iff in HC as (x & r & HC). now apply (H x r).
  Qed.
  Lemma not_skipped k cs v : outside k cs -> existsb (fun d => hidden_by d (cs, v)) k = false.
  Proof.
    intros H. apply not_true_iff_false. intros HE. apply existsb_exists in HE as (d & I & HD). specialize (H d [] v I). rewrite app_nil_r in H. congruence.
  Qed.
  Lemma hidden_inside d e : inside d (fst e) = true -> hidden_by d e = true.
  Proof. unfold hidden_by. intros ->. reflexivity. Qed.
  Lemma drop_skip cs k L s : far cs L -> run s (cs :: k) L = run s k L.
  Proof.
    intros F. apply run_ext. intros e I. cbn. replace (hidden_by cs e) with false; [reflexivity|]. symmetry. unfold hidden_by. apply orb_false_iff. split.
    - apply inside_not. intros x r HE. exact (F e _ I HE).
    - destruct (snd e); try reflexivity. destruct (list_eq_dec _ cs (fst e)) as [HE|]; [|reflexivity]. exfalso. apply (F e [] I). now rewrite app_nil_r.
  Qed.
  Definition after (cs : list (list Z)) (n : wnode) (k : list (list (list Z))) L (r : S * answer E) : S * option E :=
    match r with
    | (s', Go) => run s' k L
    | (s', Skip) => if wisdir n then run s' k L else run s' (match cs with [] => [] | _ => [removelast cs] end ++ k) L
    | (s', Fail x) => (s', Some x)
    end.
  Definition good (n : wnode) : Prop := proper n -> forall cs s k L, outside k cs -> far cs L ->
    run s k (map (shift cs) (events n) ++ L) = after cs n k L (walk fn n (pt cs) s).
  Lemma shift_root cs (v : visit) : shift cs ([], v) = (cs, v).
  Proof. unfold shift. cbn. now rewrite app_nil_r. Qed.
  Lemma loop_good cs l : Forall good l -> Forall proper l -> NoDup (map wname_of l) -> forall s k L,
    (forall d x r v, In d k -> In x (map wname_of l) -> hidden_by d (cs ++ x :: r, v) = false) -> far cs L ->
    run s k (concat (map (fun n => map (shift cs) (map (push (wname_of n)) (events n))) l) ++ L) =
    match walk_loop (pt cs) (map (fun n => (wname_of n, (wisdir n, walk fn n))) l) s with
    | (s', Fail x) => (s', Some x)
    | (s', _) => run s' k L
    end.
  Proof.
    induction l as [|n l IH]; intros FG FP ND s k L HK FL; [reflexivity|].
    inversion FG as [|? ? G1 G2]; subst. inversion FP as [|? ? P1 P2]; subst. cbn [map] in ND. inversion ND as [|? ? N1 N2]; subst.
    cbn [map concat walk_loop]. rewrite shift_push, <- app_assoc.
    set (R := concat (map (fun n => map (shift cs) (map (push (wname_of n)) (events n))) l)) in *.
    assert (RI : forall e, In e R -> exists x r, In x (map wname_of l) /\ fst e = cs ++ x :: r).
    { intros e I. apply in_concat in I as (es & IE & I). apply in_map_iff in IE as (k' & <- & IK). rewrite shift_push in I. apply in_map_iff in I as (e' & <- & _).
      exists (wname_of k'), (fst e'). split; [now apply in_map|]. cbn. now rewrite <- app_assoc. }
    rewrite (G1 P1 (cs ++ [wname_of n]) s k (R ++ L)).
    2: { intros d r v I. rewrite <- app_assoc. cbn [app]. apply HK; [assumption|now left]. }
    2: { intros e r I HE. apply in_app_or in I as [I|I].
         - destruct (RI e I) as (x & r' & IX & EX). rewrite EX, <- app_assoc in HE. apply app_inv_head in HE. cbn in HE. assert (x = wname_of n) by congruence. subst. contradiction.
         - rewrite <- app_assoc in HE. exact (FL e _ I HE). }
    rewrite <- pt_snoc. unfold after. destruct (walk fn n (pt (cs ++ [wname_of n])) s) as [s' [| |x]].
    - apply IH; auto. intros d x r v I IX. apply HK; [assumption|now right].
    - destruct (wisdir n).
      + apply IH; auto. intros d x r v I IX. apply HK; [assumption|now right].
      + assert (EQ : (match cs ++ [wname_of n] with [] => [] | _ => [removelast (cs ++ [wname_of n])] end) = [cs]).
        { rewrite removelast_last. destruct cs; reflexivity. }
        rewrite EQ. cbn [app]. rewrite run_drop.
        * now apply drop_skip.
        * intros e I. destruct (RI e I) as (x & r & _ & EX). cbn [existsb]. rewrite hidden_inside; [reflexivity|]. apply inside_iff. eauto.
    - reflexivity.
  Qed.
  Lemma walk_good n : good n.
  Proof.
    induction n as [nm sz|nm kids IH|nm er|nm er] using wnode_deep; intros PR cs s k L OUT FAR.
    - cbn [events map app walk wisdir]. rewrite shift_root. cbn [WalkSpec.run fst snd]. rewrite (not_skipped k cs _ OUT). unfold fn' at 1. cbn [told fst snd].
      destruct (fn s (pt cs) _ None) as [s' [| |x]]; reflexivity.
    - rewrite events_dir. cbn [map app]. rewrite shift_root. cbn [WalkSpec.run fst snd walk]. rewrite (not_skipped k cs _ OUT). unfold fn' at 1. cbn [told fst snd].
      destruct (fn s (pt cs) _ None) as [s' [| |x]]; [| |reflexivity].
      + rewrite sort_kids. inversion PR as [| | |? ? ND FN FP]; subst. rewrite concat_map, map_map.
        rewrite (loop_good cs (sorted_kids kids)).
        * unfold after. destruct (walk_loop _ _ _) as [s2 [| |x]]; reflexivity.
        * rewrite kids_perm. exact IH.
        * rewrite kids_perm. exact FP.
        * now apply kids_nodup.
        * intros d x r v I _. now apply OUT.
        * assumption.
      + unfold after. rewrite run_drop.
        * unfold skipped. cbn [snd fi_dir fst app]. now apply drop_skip.
        * intros e I. apply in_map_iff in I as (e' & <- & I). apply in_concat in I as (es & IE & I). apply in_map_iff in IE as (k' & <- & _). apply in_map_iff in I as (e2 & <- & _).
          unfold skipped. cbn [snd fi_dir fst app existsb]. rewrite hidden_inside; [reflexivity|]. apply inside_iff. cbn. eauto.
    - cbn [events map app walk wisdir]. rewrite !shift_root. cbn [WalkSpec.run fst snd]. rewrite (not_skipped k cs _ OUT). unfold fn' at 1. cbn [told fst snd].
      destruct (fn s (pt cs) _ None) as [s' [| |x]]; [| |reflexivity].
      + rewrite (not_skipped k cs _ OUT). unfold fn' at 1. cbn [told fst snd]. destruct (fn s' (pt cs) _ _) as [s2 [| |x]]; reflexivity.
      + unfold skipped at 1. cbn [snd fst fi_dir app existsb]. replace (hidden_by cs (cs, _)) with true.
        2: { unfold hidden_by. cbn [fst snd]. destruct (list_eq_dec _ cs cs); [now rewrite orb_true_r|congruence]. }
        cbn [orb]. unfold skipped. cbn [snd fst fi_dir app]. now apply drop_skip.
    - cbn [events map app walk wisdir]. rewrite shift_root. cbn [WalkSpec.run fst snd]. rewrite (not_skipped k cs _ OUT). unfold fn' at 1. cbn [told fst snd].
      destruct (fn s (pt cs) _ _) as [s' [| |x]]; reflexivity.
  Qed.
  Lemma walk_run n s : proper n -> walk_path fn n root s = run s [] (events n).
  Proof.
    intros PR. pose proof (walk_good n PR [] s [] [] ltac:(intros ? ? ? []) ltac:(intros ? ? [])) as H. rewrite app_nil_r in H.
    assert (EM : map (shift []) (events n) = events n) by (rewrite <- (map_id (events n)) at 2; apply map_ext; intros [a b]; reflexivity).
    rewrite EM in H. rewrite H. unfold walk_path, after. cbn [pt fold_left]. unfold pt. cbn [fold_left].
    destruct (walk fn n root s) as [s' [| |x]]; try reflexivity. cbn [WalkSpec.run]. destruct (wisdir n); reflexivity.
  Qed.
End Walking.

(** ** The texts of the paths *)
Lemma join_leads1 a x p : a <> [] -> name x -> leads p (fp_join [a; x]) = x :: leads p a.
Proof.
  intros N X. destruct a as [|c a]; [congruence|]. cbn [fp_join]. pose proof (clean_leads (join_slash [c :: a; x]) p) as H. unfold file_path in H. rewrite H.
  change (join_slash [c :: a; x]) with ((c :: a) ++ 47 :: x). rewrite !leads_fold, segments_app, fold_left_app. change (is_rooted ((c :: a) ++ 47 :: x)) with (is_rooted (c :: a)).
  rewrite (segments_one x) by (now apply name_flat). exact (fold_names [x] _ ltac:(repeat constructor; apply X)).
Qed.
Lemma pt_text root cs : root <> [] -> Forall name cs -> text_of root cs (pt root cs).
Proof.
  intros N F. assert (H : pt root cs <> [] /\ (forall p, leads p (pt root cs) = rev cs ++ leads p root) /\ (cs <> [] -> canonical (pt root cs))).
  { induction cs as [|x cs IH] using rev_ind; [split; [assumption|]; split; [reflexivity|congruence]|].
    apply Forall_app in F as [F1 FX]. inversion FX as [|? ? X _]; subst. destruct (IH F1) as (I1 & I2 & _). rewrite pt_snoc.
    assert (EC : fp_join [pt root cs; x] = clean (join_slash [pt root cs; x])) by (destruct (pt root cs); [congruence|reflexivity]).
    split; [rewrite EC; apply clean_ne|]. split.
    - intros p. rewrite join_leads1 by assumption. rewrite I2, rev_app_distr. reflexivity.
    - intros _. rewrite EC. apply clean_canonical. }
  destruct H as (_ & H1 & H2). destruct cs as [|x cs]; [reflexivity|]. split; [apply H2; discriminate|assumption].
Qed.
Lemma down_names n cs m : proper n -> down n cs m -> Forall name cs.
Proof.
  intros PR D. induction D as [|nm kids k cs m I D IH]; [constructor|]. inversion PR as [| | |? ? _ FN FP]; subst. rewrite Forall_forall in FN, FP. constructor; [now apply FN|]. apply IH. now apply FP.
Qed.
Lemma walk_visits n root : proper n -> root <> [] -> exists l path,
  StronglySorted earlier l /\ (forall e, In e l <-> belongs n e) /\ (forall cs m, down n cs m -> text_of root cs (path cs)) /\
  forall S E (fn : S -> list Z -> option finfo -> option (list Z) -> S * answer E) s,
    walk_path fn n root s = run S E (fun s cs v => fn s (path cs) (fst (told v)) (snd (told v))) s [] l.
Proof.
  intros PR N. exists (events n), (pt root). split; [now apply events_sorted|]. split; [apply events_iff|]. split.
  - intros cs m D. apply pt_text; [assumption|]. now apply (down_names n cs m).
  - intros S E fn s. now apply walk_run.
Qed.

(** ** Statistic *)
Lemma stat_run path l : forall nd nf sz buf,
  run _ Z (fun s cs v => stat_fn s (path cs) (fst (told v)) (snd (told v))) (Ok (nd, nf, sz, buf)) [] l =
  (Ok (nd + dirs_in l, nf + files_in l, fold_left (fun a e => match snd e with VEntry i => if fi_dir i then a else (a + fi_size i mod 2 ^ 64) mod 2 ^ 64 | _ => a end) l sz, buf ++ errors_in l), None).
Proof.
  induction l as [|[cs v] l IH]; intros nd nf sz buf.
  - cbn. unfold dirs_in, files_in, errors_in. cbn. now rewrite !Z.add_0_r, app_nil_r.
  - cbn [run existsb fst snd]. unfold stat_fn at 1. cbn [bind].
    assert (EL : errors_in ((cs, v) :: l) = match v with VEntry _ => [] | VShut _ t | VLost t => t ++ [10] end ++ errors_in l) by reflexivity. rewrite EL.
    destruct v as [i|i e|e]; cbn [told fst snd fold_left].
    + assert (ED : dirs_in ((cs, VEntry i) :: l) = (if fi_dir i then 1 else 0) + dirs_in l) by (unfold dirs_in; cbn [filter snd]; destruct (fi_dir i); cbn [length]; lia).
      assert (EF : files_in ((cs, VEntry i) :: l) = (if fi_dir i then 0 else 1) + files_in l) by (unfold files_in; cbn [filter snd]; destruct (fi_dir i); cbn [negb length]; lia).
      rewrite ED, EF. destruct (fi_dir i) eqn:D; cbn [bind]; rewrite IH; cbn [app]; now rewrite !Z.add_assoc, ?Z.add_0_r.
    + cbn [bind]. rewrite IH. unfold dirs_in, files_in; cbn [filter snd]. now rewrite <- app_assoc.
    + cbn [bind]. rewrite IH. unfold dirs_in, files_in; cbn [filter snd]. now rewrite <- app_assoc.
Qed.
Lemma size_fold l : forall a, 0 <= a < 2 ^ 64 ->
  fold_left (fun a (e : list (list Z) * visit) => match snd e with VEntry i => if fi_dir i then a else (a + fi_size i mod 2 ^ 64) mod 2 ^ 64 | _ => a end) l a = (a + bytes_in l) mod 2 ^ 64.
Proof.
  induction l as [|[cs v] l IH]; intros a H; cbn [fold_left bytes_in fold_right snd].
  - now rewrite Z.add_0_r, Z.mod_small.
  - fold (bytes_in l). destruct v as [i|i e|e]; [|now apply IH|now apply IH]. destruct (fi_dir i); [now apply IH|].
    rewrite IH by (apply Z.mod_pos_bound; lia). rewrite Zplus_mod_idemp_l. replace (a + fi_size i mod 2 ^ 64 + bytes_in l) with (a + bytes_in l + fi_size i mod 2 ^ 64) by lia. rewrite Zplus_mod_idemp_r. f_equal. lia.
Qed.
Lemma statistic_exact n root : proper n -> root <> [] -> exists l,
  StronglySorted earlier l /\ (forall e, In e l <-> belongs n e) /\
  statistic_walk n root = Ok (dirs_in l, files_in l, bytes_in l mod 2 ^ 64, errors_in l).
Proof.
  intros PR N. destruct (walk_visits n root PR N) as (l & path & H1 & H2 & _ & H4). exists l. split; [assumption|]. split; [assumption|].
  unfold statistic_walk. rewrite H4, stat_run. cbn [fst]. rewrite size_fold by lia. now rewrite !Z.add_0_l.
Qed.
